(** The entries at run time agree with the debugging data. *)
From Coq Require Import ZArith String List Bool Arith Lia Cantor.
From Verif Require Import Base MetadbModel MetadbSpec MetadbProof5 MetadbProof6 BuildModel.
From Verif Require EntryModel.
From Verif Require Import BuildSpec BuildProof1 BuildProof2.
Import ListNotations.

(** ** The numbers of entries *)
Lemma printed_ty : forall H V r o, H r = Some o -> printed H V (ty r) = type_entry_of r o.
Proof. intros H V r o E. unfold printed, ty. rewrite Nat.mul_comm, Nat.mod_mul, Nat.div_mul by discriminate. rewrite E. reflexivity. Qed.
Lemma printed_mb : forall H V r o g fs hs k f, H r = Some o -> o_body o = Struct g fs hs -> nth_error fs k = Some f -> printed H V (mb r k) = member_entry_of f.
Proof.
  intros H V r o g fs hs k f E B N. unfold printed, mb. replace (3 * to_nat (r, k) + 1)%nat with (1 + to_nat (r, k) * 3)%nat by lia. rewrite Nat.mod_add, Nat.div_add by discriminate. cbn [Nat.modulo Nat.divmod fst snd Nat.sub Nat.div Nat.add].
  rewrite cancel_of_to, E, B, N. reflexivity.
Qed.
Lemma printed_pr : forall H V r o ps t k p, H r = Some o -> o_body o = Subroutine ps t -> nth_error ps k = Some p -> printed H V (pr r k) = param_entry_of p.
Proof.
  intros H V r o ps t k p E B N. unfold printed, pr. replace (3 * to_nat (r, k) + 2)%nat with (2 + to_nat (r, k) * 3)%nat by lia. rewrite Nat.mod_add, Nat.div_add by discriminate. cbn [Nat.modulo Nat.divmod fst snd Nat.sub Nat.div Nat.add].
  rewrite cancel_of_to, E, B, N. reflexivity.
Qed.
Lemma forall2_seq : forall A B (P : A -> B -> Prop) (f : nat -> nat) (R : nat -> EntryModel.entry) (ent : B -> EntryModel.entry) l gs, Forall2 P l gs ->
  forall n, (forall k g, nth_error gs k = Some g -> R (f (n + k)%nat) = ent g) -> Forall2 (fun x m => exists g, P x g /\ R m = ent g) l (map f (seq n (List.length gs))).
Proof.
  intros A B P f R ent l gs F. induction F as [|x g l gs H F IH]; intros n N; [constructor|]. cbn [List.length seq map]. constructor.
  - exists g. split; [exact H|]. rewrite <- (N 0%nat g eq_refl), Nat.add_0_r. reflexivity.
  - apply IH. intros k g' E. rewrite <- (N (S k) g' E). f_equal. f_equal. lia.
Qed.
Lemma forall2_imp : forall A B (P Q : A -> B -> Prop) l m, (forall x y, In x l -> In y m -> P x y -> Q x y) -> Forall2 P l m -> Forall2 Q l m.
Proof. intros A B P Q l m H F. induction F as [|x y l m X F IH]; constructor; [apply H; [left|left|]; auto|]. apply IH. intros x' y' I J. apply H; right; assumption. Qed.
Lemma forall2_comp : forall A B C (P : A -> B -> Prop) (Q : B -> C -> Prop) l m n, Forall2 P l m -> Forall2 Q m n -> Forall2 (fun x z => exists y, P x y /\ Q y z) l n.
Proof. intros A B C P Q l m n F. revert n. induction F as [|x y l m X F IH]; intros n G; inversion G; subst; constructor; eauto. Qed.

Section S.
Variable data : nat -> option die.
Variable G H : nat -> option object.
Variable V : nat -> option other.
Variable Q0 : nat -> nat -> Prop.
Hypothesis K : kept G H Q0.
Hypothesis Rt : forall i o, G i = Some o -> right data i o.
(** arrays are stored with all dimensions *)
Hypothesis Ar : forall i o d t rs, G i = Some o -> data i = Some d -> d_tag d = DArray -> d_type d = Some t -> subranges data (d_children d) = Ok rs ->
  forall k x, In (k, x) (process_array i (d_name d) (declared_die d) (d_size d) (d_align d) (d_stride d) t rs) -> G k = Some x.
Hypothesis Tr : tree data.
Hypothesis NB : forall r b e, H r = Some b -> o_body b = BaseType e -> o_decl b = false.
Hypothesis DN : forall r b, H r = Some b -> o_decl b = true -> o_name b <> None.

Definition rel (i x : nat) : Prop := exists r, x = ty r /\ Q0 i r /\ kind_in data type_tag i.

Lemma to_rel : forall t u, linked Q0 t u -> (forall j, t = Some j -> kind_in data type_tag j) -> to rel t (link_to u).
Proof. intros t u L Kt. destruct L as [|i j Q]; [exact I|]. exists j. split; [reflexivity|]. split; [exact Q|]. apply Kt. reflexivity. Qed.

Lemma level_of : forall S e i ds, is_array S e i ds -> exists o t s l c, S i = Some o /\ o_body o = Array t s l c (Z.of_nat (List.length ds) - 1).
Proof. intros S e i ds A. destruct A as [i o s l c E B | i o s l c j d ds E B A']; [exists o, (Some e), s, l, c | exists o, (Some j), s, l, c]; (split; [exact E|]); rewrite B; f_equal; cbn [List.length]; lia. Qed.
Lemma array_down : forall S e i ds top, (forall k x, S k = Some x -> G k = Some x) -> (forall k x, S k = Some x -> k <> top -> o_name x = None /\ o_decl x = false) ->
  is_array S e i ds -> forall r a b, Q0 i r -> G i = Some a -> H r = Some b -> o_decl a = false -> o_decl b = false ->
  (i = top \/ forall n x t s l c v, S top = Some x -> o_body x = Array t s l c v -> n = List.length ds -> (Z.of_nat n - 1 < v)%Z) ->
  exists y, array_way (printed H V) (ty r) (map snd ds) (ty y) /\ Q0 e y.
Proof.
  intros S e i ds top SG SN A. induction A as [i o s l c E B | i o s l c j d ds E B A' IH]; intros r a b Q Ga Hb Da Db Lv.
  - destruct (K i r Q) as [a' [b' [Ga' [Hb' [_ [_ Al]]]]]]. rewrite Ga in Ga'. injection Ga' as <-. rewrite Hb in Hb'. injection Hb' as <-. specialize (Al Da Db).
    rewrite (SG _ _ E) in Ga. injection Ga as ->. destruct Al; try congruence. assert (Some e = t /\ c = c0) as [<- <-] by (split; congruence). inversion H2 as [|x y Qy]; subst. exists y. split; [|exact Qy].
    cbn [map snd]. apply aw_last. rewrite (printed_ty _ _ _ _ Hb). cbn. unfold type_info. rewrite H1. reflexivity.
  - destruct (K i r Q) as [a' [b' [Ga' [Hb' [_ [_ Al]]]]]]. rewrite Ga in Ga'. injection Ga' as <-. rewrite Hb in Hb'. injection Hb' as <-. specialize (Al Da Db).
    pose proof (SG _ _ E) as Ge. rewrite Ge in Ga. injection Ga as ->. destruct Al; try congruence. assert (Some j = t /\ c = c0) as [<- <-] by (split; congruence). inversion H2 as [|x y Qy]; subst.
    destruct (K j y Qy) as [aj [bj [Gj [Hj [Nm [_ _]]]]]].
    assert (Nt : j <> top).
    { intros ->. destruct (level_of _ _ _ _ A') as [oj [tj [sj [lj [cj [Ej Bj]]]]]]. destruct Lv as [->|Lv].
      - rewrite E in Ej. injection Ej as <-. rewrite B in Bj. assert (X : Z.of_nat (List.length (d :: ds)) = (Z.of_nat (List.length (d :: ds)) - 1)%Z) by congruence. lia.
      - specialize (Lv _ oj _ _ _ _ _ Ej Bj eq_refl). cbn [List.length] in Lv. lia. }
    destruct (level_of _ _ _ _ A') as [oj [tj [sj [lj [cj [Ej Bj]]]]]]. destruct (SN _ _ Ej Nt) as [N1 N2]. pose proof (SG _ _ Ej) as Gj'. rewrite Gj in Gj'. injection Gj' as ->.
    assert (Dj : o_decl bj = false) by (destruct (o_decl bj) eqn:X; [|reflexivity]; destruct (DN _ _ Hj X); congruence).
    destruct (IH y oj bj Qy Gj Hj N2 Dj) as [z [W Qz]].
    { right. intros n x0 t0 s1 l1 c1 v1 Tx Tb ->. destruct Lv as [->|Lv].
      - rewrite E in Tx. injection Tx as <-. rewrite B in Tb. assert (X : Z.of_nat (List.length (d :: ds)) = v1) by congruence. rewrite <- X. lia.
      - specialize (Lv _ x0 _ _ _ _ _ Tx Tb eq_refl). cbn [List.length] in Lv |- *. lia. }
    exists z. split; [|exact Qz]. cbn [map snd]. eapply aw_more; [| |exact W].
    + rewrite (printed_ty _ _ _ _ Hb). cbn. unfold type_info. rewrite H1. reflexivity.
    + rewrite (printed_ty _ _ _ _ Hj). cbn. rewrite Dj. destruct (o_body bj); reflexivity.
Qed.
Lemma subranges_parts : forall l rs, subranges data l = Ok rs -> Forall2 (fun c s => exists d, data c = Some d /\ s_lower s = d_lower d /\ s_count s = d_count d /\ s_upper s = d_upper d) l rs.
Proof.
  induction l as [|c r IH]; intros rs E; cbn in E; [injection E as <-; constructor|]. destruct (data c) as [d|] eqn:D; [|discriminate]. destruct (d_tag d); try discriminate. un E x X. injection E as <-.
  constructor; [exists d; auto|apply IH; exact X].
Qed.
Lemma enumerators_parts : forall l es, enumerators data l = Ok es -> Forall2 (fun c '(n, v) => exists x, data c = Some x /\ d_name x = n /\ d_value x = Some v) l (map (fun '(k, v) => (Some k, v)) es).
Proof.
  induction l as [|c r IH]; intros es E; cbn in E; [injection E as <-; constructor|]. destruct (data c) as [d|] eqn:D; [|discriminate]. destruct (d_tag d); try discriminate. destruct (d_name d) eqn:N; [|discriminate].
  destruct (d_value d) eqn:Vd; [|discriminate]. un E x X. injection E as <-. cbn. constructor; [exists d; auto|apply IH; exact X].
Qed.
Lemma declared_not : forall d, ~ is_declaration d -> declared_die d = false.
Proof. intros d N. unfold declared_die. destruct (d_decl d) as [[|]|] eqn:E; try reflexivity. destruct (N E). Qed.
Lemma or0_size : forall (a b : option Z) n, a = b -> a = Some n -> or0 b = n.
Proof. intros a b n <- ->. reflexivity. Qed.
Lemma encoding_ok : forall (e : option Z), dw_encoding e (enc_code (match e with Some x => encoding_text x | None => "" end)).
Proof.
  intros e v -> B. assert (C : (v = 0 \/ v = 1 \/ v = 2 \/ v = 3 \/ v = 4 \/ v = 5 \/ v = 6 \/ v = 7 \/ v = 8 \/ v = 9 \/ v = 10 \/ v = 11 \/ v = 12 \/ v = 13 \/ v = 14 \/ v = 15 \/ v = 16 \/ v = 17 \/ v = 18)%Z) by lia.
  repeat (destruct C as [->|C]; [reflexivity|]). subst. reflexivity.
Qed.

Theorem rel_faithful : faithful data (printed H V) rel.
Proof.
  intros i x [r [-> [Q [d [D T]]]]]. destruct (K i r Q) as [a [b [Ga [Hb [Nm [Sk Al]]]]]]. exists d. split; [exact D|]. split; [exact T|]. rewrite (printed_ty _ _ _ _ Hb). cbn [EntryModel.e_name type_entry_of EntryModel.e_declaration].
  pose proof (Rt _ _ Ga) as R.
  assert (Top : d_tag d = DArray -> exists t rs, d_type d = Some t /\ type_entry data t = Ok tt /\ subranges data (d_children d) = Ok rs /\ In (i, a) (process_array i (d_name d) (declared_die d) (d_size d) (d_align d) (d_stride d) t rs)).
  { intros Ta. destruct R as [i d' a D' P | i' d' t rs i a D' T' Ty Te Sr In']; [rewrite D in D'; injection D' as <-; unfold plain_object in P; rewrite Ta in P; discriminate|].
    destruct (process_array_in i' (d_name d') (declared_die d') (d_size d') (d_align d') (d_stride d') t rs) as [y [rest [Y [_ [_ [_ [Ma _]]]]]]]. pose proof In' as In2. rewrite Y in In'. destruct In' as [X|X].
    - injection X as -> ->. rewrite D in D'. injection D' as <-. exists t, rs. auto.
    - exfalso. destruct (subranges_in _ _ _ Sr) as [S1 S2]. assert (Jk : In i (d_children d')) by (rewrite <- S1; apply (in_map fst) in X; rewrite Ma in X; cbn in X; destruct rs; [destruct X|right; exact X]).
      destruct (S2 _ Jk) as [dk [Dk Tk]]. rewrite D in Dk. injection Dk as <-. congruence. }
  assert (Pl : d_tag d <> DArray -> plain_object data d = Ok a).
  { intros Na. destruct R as [i d' a D' P | i' d' t rs i a D' T' Ty Te Sr In']; [rewrite D in D'; injection D' as <-; exact P|]. exfalso.
    destruct (process_array_in i' (d_name d') (declared_die d') (d_size d') (d_align d') (d_stride d') t rs) as [y [rest [Y [_ [_ [_ [Ma _]]]]]]]. rewrite Y in In'. destruct In' as [X|X].
    - injection X as -> ->. rewrite D in D'. injection D' as <-. congruence.
    - destruct (subranges_in _ _ _ Sr) as [S1 S2]. assert (Jk : In i (d_children d')) by (rewrite <- S1; apply (in_map fst) in X; rewrite Ma in X; cbn in X; destruct rs; [destruct X|right; exact X]).
      destruct (S2 _ Jk) as [dk [Dk Tk]]. rewrite D in Dk. injection Dk as <-. rewrite Tk in T. destruct T. }
  assert (Nt : forall o, plain_object data d = Ok o -> o_decl o = declared_die d /\ o_size o = d_size d /\ (d_tag d <> DBase -> o_name o = d_name d)).
  { intros o P. unfold plain_object in P. destruct (d_tag d); try discriminate.
    - unfold base_type in P. destruct (d_name d); [|discriminate]. destruct (base_name _ _); [|discriminate]. destruct (_ || _); [discriminate|]. injection P as <-. repeat split. intros X. congruence.
    - un P l E. injection P as <-. repeat split.
    - un P l E. injection P as <-. repeat split.
    - un P l E. injection P as <-. repeat split.
    - injection P as <-. repeat split.
    - un P l E. un P l' E'. injection P as <-. repeat split.
    - destruct (d_name d) eqn:N; [|discriminate]. un P l E. injection P as <-. cbn. rewrite N. repeat split.
    - un P l E. injection P as <-. repeat split.
    - un P l E. injection P as <-. repeat split. }
  assert (Dc : d_tag d = DArray \/ d_tag d <> DArray) by (destruct (d_tag d); (left; reflexivity) || (right; discriminate)).
  split.
  - intros Nb. rewrite <- Nm. destruct Dc as [Ta|Na]; [|exact (proj2 (proj2 (Nt _ (Pl Na))) Nb)].
    destruct (Top Ta) as [t [rs [Ty [Te [Sr In']]]]]. destruct (process_array_in i (d_name d) (declared_die d) (d_size d) (d_align d) (d_stride d) t rs) as [y [rest [Y [Ny [_ [_ [Ma _]]]]]]]. rewrite Y in In'. destruct In' as [X|X]; [injection X as <-; exact Ny|].
    exfalso. destruct (subranges_in _ _ _ Sr) as [S1 S2]. assert (Jk : In i (d_children d)) by (rewrite <- S1; apply (in_map fst) in X; rewrite Ma in X; cbn in X; destruct rs; [destruct X|right; exact X]). destruct (S2 _ Jk) as [dk [Dk Tk]]. rewrite D in Dk. injection Dk as <-. congruence.
  - intros Nd Eb. assert (Db : o_decl b = false) by (destruct (o_body b) eqn:B; try exact Eb; eapply NB; eassumption). pose proof (declared_not _ Nd) as Dd.
    assert (E : printed H V (ty r) = type_entry_of r b) by (apply printed_ty; exact Hb). unfold says. rewrite E. cbn [EntryModel.e_info type_entry_of].
    destruct Dc as [Ta|Na].
    + rewrite Ta. destruct (Top Ta) as [t [rs [Ty [Te [Sr In']]]]]. destruct (subranges_in _ _ _ Sr) as [S1 S2].
      assert (Ni : ~ In i (map s_index rs)) by (rewrite S1; intros Jk; destruct (S2 _ Jk) as [dk [Dk Tk]]; rewrite D in Dk; injection Dk as <-; congruence).
      assert (Nd' : NoDup (i :: map s_index rs)) by (constructor; [exact Ni|rewrite S1; exact (tr_nodup _ Tr _ _ D)]).
      destruct (array_ok i (d_name d) (declared_die d) (d_size d) (d_align d) (d_stride d) t rs Nd') as [_ [A0 A1]]. set (PA := process_array i (d_name d) (declared_die d) (d_size d) (d_align d) (d_stride d) t rs) in *.
      assert (SG : forall k y, stored PA k = Some y -> G k = Some y) by (intros k y Y; eapply Ar; try eassumption; exact (made_in PA k y Y)).
      destruct (process_array_in i (d_name d) (declared_die d) (d_size d) (d_align d) (d_stride d) t rs) as [y0 [rest [Y [Ny [Dy [_ [Ma Nr]]]]]]]. fold PA in Y.
      assert (SN : forall k y, stored PA k = Some y -> k <> i -> o_name y = None /\ o_decl y = false).
      { intros k y X Nk. apply (made_in PA) in X. rewrite Y in X. destruct X as [X|X]; [injection X as -> _; contradiction|]. exact (Nr _ _ X). }
      assert (Da : o_decl a = false).
      { rewrite Y in In'. destruct In' as [X|X]; [injection X as <-; congruence|exact (proj2 (Nr _ _ X))]. }
      assert (Go : forall ds, is_array (stored PA) t i ds -> exists y, array_way (printed H V) (ty r) (map snd ds) (ty y) /\ Q0 t y) by (intros ds A; exact (array_down _ _ _ _ i SG SN A r a b Q Ga Hb Da Db (or_introl eq_refl))).
      destruct rs as [|s0 rs'].
      * destruct (Go _ (A0 eq_refl)) as [y [W Qy]]. exists t, (ty y), [(-1)%Z]. split; [exact Ty|]. split; [exists y; split; [reflexivity|]; split; [exact Qy|apply type_entry_kind; exact Te]|]. split; [exact W|].
        destruct (d_children d); [reflexivity|discriminate].
      * destruct A1 as [ds [A2 F]]; [discriminate|]. destruct (Go _ A2) as [y [W Qy]]. exists t, (ty y), (map snd ds). split; [exact Ty|]. split; [exists y; split; [reflexivity|]; split; [exact Qy|apply type_entry_kind; exact Te]|]. split; [exact W|].
        pose proof (forall2_comp _ _ _ _ _ _ _ _ (subranges_parts _ _ Sr) F) as C.
        assert (C' : Forall2 (fun c n => forall k, range_of data c k -> n = k) (d_children d) (map snd ds)).
        { clear - C. induction C as [|c dd l ds X C IH]; [constructor|]. cbn. constructor; [|exact IH]. destruct X as [s [[dc [Dc [L1 [L2 L3]]]] [_ El]]]. intros k Rk. unfold elements in El. rewrite L1, L2, L3 in El.
          destruct Rk as [d' D' Cn | d' u D' Cn Un Kn]; rewrite Dc in D'; injection D' as <-; rewrite Cn in El; [exact El|]. rewrite Un in El. subst k. lia. }
        destruct (d_children d); [inversion C'; subst; destruct ds; [inversion F|discriminate]|exact C'].
    + pose proof (Pl Na) as P. destruct (Nt _ P) as [Da [Sa Na']]. rewrite Dd in Da. specialize (Al Da Db). unfold plain_object in P. unfold type_info.
      destruct (d_tag d) eqn:Tg; try (destruct T; fail); try congruence.
      * unfold base_type in P. destruct (d_name d); [|discriminate]. destruct (base_name _ _); [|discriminate]. destruct (_ || _); [discriminate|].
        assert (Bo : o_body a = BaseType (match d_encoding d with Some e => encoding_text e | None => "" end)) by (injection P as <-; reflexivity).
        destruct Al; try congruence. rewrite H1. assert (e = match d_encoding d with Some e0 => encoding_text e0 | None => ""%string end) as -> by congruence. eexists _, _. split; [reflexivity|].
        split; [intros n Sn; eapply or0_size; [exact H2|congruence]|apply encoding_ok].
      * un P l El. assert (Bo : o_body a = Enumeration l) by (injection P as <-; reflexivity). destruct Al; try congruence. rewrite H1. assert (l0 = l) as -> by congruence. eexists _, _. split; [reflexivity|].
        split; [intros n Sn; eapply or0_size; [exact H2|congruence]|]. apply enumerators_parts. exact El.
      * un P t El. assert (Bo : o_body a = Pointer t) by (injection P as <-; reflexivity). destruct (link_of_in _ _ _ El) as [Et Kt]. destruct Al; try congruence. rewrite H1. eexists. split; [reflexivity|]. rewrite <- Et. assert (t0 = t) as -> by congruence. apply to_rel; assumption.
      * un P t El. assert (Bo : o_body a = Reference r0 t) by (injection P as <-; reflexivity). destruct (link_of_in _ _ _ El) as [Et Kt]. destruct Al; try congruence. rewrite H1. assert (r1 = r0 /\ t0 = t) as [-> ->] by (split; congruence). eexists _, _. split; [reflexivity|]. rewrite <- Et. apply to_rel; assumption.
      * assert (Bo : o_body a = Unspecified) by (injection P as <-; reflexivity). destruct Al; try congruence. rewrite H1. eexists. reflexivity.
      * un P t El. un P xx E2. destruct xx as [ps ac]. assert (Bo : o_body a = Subroutine ps t) by (injection P as <-; reflexivity). destruct (link_of_in _ _ _ El) as [Et Kt]. destruct Al; try congruence.
        assert (ps0 = ps /\ t0 = t) as [-> ->] by (split; congruence). pose proof (H1) as Hbd. rewrite H1. eexists _, _. split; [reflexivity|]. split; [rewrite <- Et; apply to_rel; assumption|]. eexists. split; [|reflexivity].
        pose proof (forall2_comp _ _ _ _ _ _ _ _ (func_params_in data _ _ _ _ _ _ E2) H2) as C.
        pose proof (forall2_seq _ _ _ (pr r) (printed H V) param_entry_of _ _ C 0%nat (fun k p Np => printed_pr H V r b qs u k p Hb Hbd Np)) as F. refine (forall2_imp _ _ _ _ _ _ _ F).
        intros c m _ _ [p [[p0 [[x [Dx [At [Kx Or]]]] Pa]] Ep]]. exists x. split; [exact Dx|]. rewrite Ep. cbn. destruct Or as [[Tu Un]|[Tp Un]].
        -- left. split; [exact Tu|]. destruct Pa as [U1 U2|U1 U2 L]; [|congruence]. rewrite U2. eexists. reflexivity.
        -- right. split; [exact Tp|]. destruct Pa as [U1 U2|U1 U2 L]; [congruence|]. destruct (a_unspec p) as [[|]|]; try congruence; eexists; (split; [reflexivity|]); rewrite <- At; apply to_rel; assumption.
      * destruct (d_name d); [|discriminate]. un P t El. assert (Bo : o_body a = Typedef t) by (injection P as <-; reflexivity). destruct (link_of_in _ _ _ El) as [Et Kt]. destruct Al; try congruence. rewrite H1. eexists. split; [reflexivity|]. rewrite <- Et. assert (t0 = t) as -> by congruence. apply to_rel; assumption.
      * un P t El. assert (Bo : o_body a = Qual q t) by (injection P as <-; reflexivity). destruct (link_of_in _ _ _ El) as [Et Kt]. destruct Al; try congruence. rewrite H1. assert (q0 = q /\ t0 = t) as [-> ->] by (split; congruence). exists (quals_of q). eexists. split; [destruct q; cbn; tauto|]. split; [reflexivity|]. rewrite <- Et. apply to_rel; assumption.
      * un P xx E2. destruct xx as [fs hs]. assert (Bo : o_body a = Struct g fs hs) by (injection P as <-; reflexivity). destruct Al; try congruence. assert (g0 = g /\ fs0 = fs) as [-> ->] by (split; congruence).
        pose proof (H1) as Hbd. rewrite H1, Db. exists (aggr_of g). eexists _, _. split; [destruct g; cbn; tauto|]. split; [reflexivity|]. split; [intros n Sn; eapply or0_size; [exact H2|congruence]|]. destruct (struct_parts_in _ _ _ _ _ E2) as [F _].
        pose proof (forall2_comp _ _ _ _ _ _ _ _ F H4) as C.
        pose proof (forall2_seq _ _ _ (mb r) (printed H V) member_entry_of _ _ C 0%nat (fun k f Nf => printed_mb H V r b g gs ks k f Hb Hbd Nf)) as F'. refine (forall2_imp _ _ _ _ _ _ _ F').
        intros c m _ _ [f [[f0 [[x [Dx Mx]] Fa]] Ep]]. exists x. split; [exact Dx|]. rewrite Ep. destruct (member_in _ _ _ _ Mx) as [M1 [M2 [M3 [M4 [M5 [M6 [M7 M8]]]]]]]. destruct Fa as [F1 F2 F3 F4 F5 F6 F7].
        constructor; [cbn; congruence|]. eexists. split; [reflexivity|]. cbn. rewrite <- M2. split; [apply to_rel; assumption|]. split; [congruence|]. split; [congruence|]. split; [congruence|]. intros Nb. rewrite <- M5. symmetry. apply F7. congruence.
Qed.
End S.
