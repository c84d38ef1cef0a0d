(** Sizes and members at run time; base types; the builder ends. *)
From Coq Require Import ZArith String Ascii List Bool Arith Lia Permutation.
From Verif Require Import Base MetadbModel MetadbSpec MetadbProof3 MetadbProof5 BuildModel.
From Verif Require Import EntryModel ValueModel.
From Verif Require Import BuildSpec BuildProof1 BuildProof2 BuildProof3.
Import ListNotations.

Lemma agree_kept : forall G H, kept G H (agree G H).
Proof.
  intros G H i j [Q [K A]]. destruct (K i j A) as [a [b [Ga [Hb [N [S1 Al]]]]]]. exists a, b. repeat split; auto. intros Da Db. eapply alike_mono; [|exact (Al Da Db)]. intros x y _ _ X. exists Q. auto.
Qed.
Lemma db_graph_in : forall G st r b, db_graph G st r = Some b -> exists o, G r = Some o /\ b = relink (i_rep st) o.
Proof. intros G st r b E. unfold db_graph in E. destruct (existsb _ _); [|discriminate]. destruct (G r) as [o|]; [|discriminate]. injection E as <-. exists o. auto. Qed.

Theorem generated_faithful : forall data parent L W st, generated data parent L st -> exists Q, faithful data (run_time L W st) Q /\
  (forall i r, Q i r -> exists q, r = ty q /\ agree (made L) (db_graph (made L) st) i q) /\
  forall i, declared_in data i -> kind_in data type_tag i -> i_dup st (parent i) = false \/ In (i_rep st i) (i_db st) -> Q i (ty (i_rep st i)).
Proof.
  intros data parent L W st [Tr [bf B] GO One Nest _ NBs [df [order [Nd [Cv De]]]]]. set (G := made L) in *. set (H := db_graph G st).
  destruct (build_ok data _ _ B) as [R Kd].
  exists (rel data (agree G H)). split; [|split].
  - unfold run_time. fold G. apply rel_faithful with (G := G).
    + apply agree_kept.
    + intros i o E. apply R, made_in, E.
    + intros i o d t rs E D T Ty Sr k x X. unfold G. apply (made_right data Tr _ _ B).
      assert (Ki : kind_in data type_tag i) by (exists d; split; [exact D|rewrite T; exact Logic.I]).
      assert (Di : declared_in data i) by (eapply made_declared; eassumption). exact (proj2 (Kd i Di Ki) d t rs D T Ty Sr _ X).
    + exact Tr.
    + intros r b e Hb Bo. apply db_graph_in in Hb. destruct Hb as [o [Go ->]]. cbn in Bo |- *. assert (Bo' : o_body o = BaseType e) by (destruct (o_body o); cbn in Bo; congruence). clear Bo.
      pose proof (R _ _ (made_in _ _ _ Go)) as Rr. destruct Rr as [i d o D P | i d t rs k o D T Ty Te Sr J].
      * unfold plain_object in P. destruct (d_tag d) eqn:T;
          try (un P l E; injection P as <-; discriminate); try discriminate; try (injection P as <-; discriminate).
        -- unfold base_type in P. destruct (d_name d); [|discriminate]. destruct (base_name _ _); [|discriminate]. destruct (_ || _); [discriminate|]. injection P as <-. cbn. apply declared_not. exact (NBs _ _ D T).
        -- un P l E. un P l' E'. injection P as <-. discriminate.
        -- destruct (d_name d); [|discriminate]. un P l E. injection P as <-. discriminate.
      * destruct (process_array_links _ _ _ _ _ _ _ _ _ _ J) as [? [? [? [? [? [Bo _]]]]]]. congruence.
    + intros r b Hb Db. apply db_graph_in in Hb. destruct Hb as [o [Go ->]]. cbn in *. destruct GO as [GO _]. exact (ok_decl _ _ (GO _ _ Go) Db).
  - intros i r [q [-> [A _]]]. exists q. auto.
  - intros i Di Ti Or. exists (i_rep st i). split; [reflexivity|]. split; [|exact Ti]. destruct (declared_made data _ _ B i Di Ti) as [o O].
    exact (dedup_agrees G parent GO df order st One Nest Nd Cv De i ltac:(unfold G; rewrite O; discriminate) Or).
Qed.

(** ** Sizes *)
Lemma uwrap_mul : forall z m n, uwrap 64 (z * uwrap 64 (m * n)) = uwrap 64 (n * z * m).
Proof. intros. unfold uwrap. rewrite Z.mul_mod_idemp_r by lia. f_equal. ring. Qed.
Definition sized (R : db) (r : ref) (z : Z) : Prop := forall m, exists n, forall fuel, (n <= fuel)%nat -> byte_size_loop fuel R (Some (St r)) m = Ret (inl (uwrap 64 (z * m))).
Lemma sized_more : forall R r z t n, e_info (R r) = IArray (Some t) n -> (0 < n)%Z -> sized R t z -> sized R r (n * z).
Proof.
  intros R r z t n E P S m. destruct (S (uwrap 64 (m * n))) as [k K]. exists (Datatypes.S k). intros fuel Lf. destruct fuel as [|fuel]; [lia|]. cbn [byte_size_loop deref]. rewrite E. replace (n <=? 0)%Z with false by (symmetry; apply Z.leb_gt; lia).
  change (lift (Some t)) with (Some (St t)). rewrite K by lia. rewrite uwrap_mul. reflexivity.
Qed.
Lemma sized_step : forall R r z t, (e_info (R r) = ITypedef (Some t) \/ exists q, e_info (R r) = IQual q (Some t)) -> sized R t z -> sized R r z.
Proof.
  intros R r z t E S m. destruct (S m) as [k K]. exists (Datatypes.S k). intros fuel Lf. destruct fuel as [|fuel]; [lia|]. cbn [byte_size_loop deref]. change (Some (St t)) with (lift (Some t)) in K. destruct E as [E|[q E]]; rewrite E; apply K; lia.
Qed.
Lemma sized_here : forall R r z, (forall fuel m, byte_size_loop (Datatypes.S fuel) R (Some (St r)) m = Ret (inl (uwrap 64 (z * m)))) -> sized R r z.
Proof. intros R r z E m. exists 1%nat. intros [|fuel] Lf; [lia|]. apply E. Qed.
Lemma array_sized : forall R r ns e z, array_way R r ns e -> Forall (fun n => 0 < n)%Z ns -> sized R e z -> sized R r (fold_right Z.mul z ns).
Proof.
  intros R r ns e z W. induction W as [r n t E | r n t ns e E D W IH]; intros P S; inversion P; subst; cbn [fold_right]; (eapply sized_more; [exact E|assumption|]); auto.
Qed.
Lemma array_meets : forall R r ns e, array_way R r ns e -> meets_declaration R e -> meets_declaration R r.
Proof. intros R r ns e W. induction W as [r n t E | r n t ns e E D W IH]; intros M; eapply md_array; eauto. Qed.
Lemma says_size : forall data R Q, faithful data R Q -> forall i z, dw_size data i z -> forall r, Q i r -> meets_declaration R r \/ sized R r z.
Proof.
  intros data R Q F i z S. induction S as [i d z D T N Sz | i d D T N | i d j z D T N Ty S IH | i d j z ns D T N Ty S IH Fr Ne Po]; intros r q;
    destruct (F i r q) as [d' [D' [_ [_ Sy]]]]; rewrite D in D'; injection D' as <-; (destruct (e_declaration (R r)) eqn:De; [left; apply md_here; exact De|]); specialize (Sy N eq_refl); unfold says in Sy.
  - right. apply sized_here. intros fuel m. cbn [byte_size_loop deref]. destruct T as [T|[T|[g T]]]; rewrite T in Sy.
    + destruct Sy as [z' [x [E [X _]]]]. rewrite E, (X _ Sz). reflexivity.
    + destruct Sy as [z' [x [E [X _]]]]. rewrite E, (X _ Sz). reflexivity.
    + destruct Sy as [k' [z' [ms [_ [E [X _]]]]]]. rewrite E, (X _ Sz). reflexivity.
  - right. apply sized_here. intros fuel m. cbn [byte_size_loop deref]. rewrite T in Sy. destruct Sy as [t [E _]]. rewrite E. reflexivity.
  - assert (exists t, (e_info (R r) = ITypedef (Some t) \/ exists q, e_info (R r) = IQual q (Some t)) /\ Q j t) as [t [E Qt]].
    { destruct T as [T|[q' T]]; rewrite T in Sy; [destruct Sy as [t [E X]]|destruct Sy as [q1 [t [_ [E X]]]]]; rewrite Ty in X; (destruct t as [t|]; [|destruct X]); exists t; split; eauto. }
    destruct (IH t Qt) as [M|S']; [left|right; eapply sized_step; eassumption]. destruct E as [E|[q' E]]; [eapply md_typedef|eapply md_qual]; eassumption.
  - rewrite T in Sy. destruct Sy as [j' [e [ns' [Ty' [Qe [W M]]]]]]. rewrite Ty in Ty'. injection Ty' as <-.
    assert (ns' = ns) as ->.
    { destruct (d_children d) as [|c cs]; [inversion Fr; subst; contradiction|]. clear - Fr M. revert ns' M. induction Fr as [|x y l m X F IH]; intros ns' M; inversion M as [|? n ? nl Y Z']; subst; [reflexivity|]. rewrite (Y _ X). f_equal. apply IH. exact Z'. }
    destruct (IH e Qe) as [Md|S']; [left; eapply array_meets; eassumption|right; eapply array_sized; eassumption].
Qed.
Theorem size_ok : forall data R Q, faithful data R Q -> forall i r z, Q i r -> dw_size data i z -> (0 <= z < 2 ^ 64)%Z ->
  meets_declaration R r \/ exists n, forall fuel, (n <= fuel)%nat -> byte_size fuel R (Some (St r)) = Ret (inl z).
Proof.
  intros data R Q F i r z q S B. destruct (says_size data R Q F i z S r q) as [M|S']; [left; exact M|right]. destruct (S' 1%Z) as [n K]. exists n. intros fuel Lf. unfold byte_size. rewrite (K fuel Lf), Z.mul_1_r. unfold uwrap. rewrite Z.mod_small by exact B. reflexivity.
Qed.
(** ** Members *)
Theorem members_ok : forall data R Q, faithful data R Q -> forall i r d g, Q i r -> data i = Some d -> d_tag d = DStruct g -> ~ is_declaration d -> e_declaration (R r) = false ->
  let ms := filter (fun c => match data c with Some x => match d_tag x with DMember => true | _ => false end | None => false end) (d_children d) in
  forall fuel, member_count (S fuel) R (Some (St r)) = Ret (Z.of_nat (List.length ms)) /\
    forall k c, nth_error ms k = Some c -> exists x q, data c = Some x /\ by_member_id (S fuel) R (Some (St r)) (Z.of_nat k) = Ret (Some (St q)) /\ member_says Q x (R q).
Proof.
  intros data R Q F i r d g q D T N De ms fuel. destruct (F i r q) as [d' [D' [_ [_ Sy]]]]. rewrite D in D'. injection D' as <-. specialize (Sy N De). unfold says in Sy. rewrite T in Sy. destruct Sy as [k0 [z [l [_ [E [_ F2]]]]]].
  assert (Fi : final_if (S fuel) R (Some (St r)) is_aggr_info = Ret (Some (St r))) by (unfold final_if, final_entry; cbn; rewrite E; cbn; rewrite E; reflexivity).
  split.
  - unfold member_count. rewrite Fi. cbn. unfold members_of. cbn. rewrite E. f_equal. f_equal. symmetry. clear - F2. fold ms in F2. revert F2. generalize ms. intros m F2. induction F2; cbn; congruence.
  - intros k c Nk. unfold by_member_id. rewrite Fi. cbn [bind]. unfold members_of. cbn [deref]. rewrite E. fold ms in F2. clear - F2 Nk.
    assert (exists p, nth_error l k = Some p /\ exists x, data c = Some x /\ member_says Q x (R p)) as [p [Np [x [Dx Mx]]]].
    { revert k Nk. induction F2 as [|c0 m0 cs l X F2 IH]; intros k Nk; [destruct k; discriminate|]. destruct k as [|k]; [injection Nk as <-; exists m0; split; [reflexivity|exact X]|]. exact (IH k Nk). }
    exists x, p. split; [exact Dx|]. split; [|exact Mx]. unfold nth_id. pose proof (nth_error_Some l k) as [Lt _]. assert (k < List.length l)%nat by (apply Lt; congruence).
    replace (Z.of_nat k <? 0)%Z with false by (symmetry; apply Z.ltb_ge; lia). replace (Z.of_nat (List.length l) <=? Z.of_nat k)%Z with false by (symmetry; apply Z.leb_gt; lia). cbn [orb]. rewrite Nat2Z.id, Np. reflexivity.
Qed.

(** ** Base types *)
Definition perm_b (l m : list string) : bool := forallb (fun w => Nat.eqb (count_occ string_dec l w) (count_occ string_dec m w)) (l ++ m).
Lemma perm_b_ok : forall l m, perm_b l m = true -> Permutation l m.
Proof.
  intros l m H. apply (Permutation_count_occ string_dec). intros x. destruct (in_dec string_dec x (l ++ m)) as [I|N].
  - unfold perm_b in H. rewrite forallb_forall in H. apply Nat.eqb_eq. exact (H x I).
  - rewrite !(proj1 (count_occ_not_In string_dec _ x)); [reflexivity| |]; intros I; apply N, in_or_app; auto.
Qed.
Definition all_types : list ctype := [CChar; CUChar; CShort; CUShort; CInt; CUInt; CLong; CULong; CLLong; CULLong; CBool; CFloat; CDouble; CLDouble; CFComplex; CDComplex; CLDComplex].
Lemma all_types_in : forall c, In c all_types.
Proof. intros []; cbn; tauto. Qed.
Definition spells_b (s : string) (c : ctype) : bool := existsb (perm_b (words s)) (spelled_as c).
Lemma spells_ok : forall s c, spells_b s c = true -> exists l, In l (spelled_as c) /\ Permutation (words s) l.
Proof. intros s c H. apply existsb_exists in H. destruct H as [l [I P]]. exists l. split; [exact I|apply perm_b_ok; exact P]. Qed.
Lemma synonyms_ok : forall s c, In (s, ct_name c) synonyms -> spells_b s c = true.
Proof.
  intros s c I. assert (A : forallb (fun p => forallb (fun c => negb (String.eqb (snd p) (ct_name c)) || spells_b (fst p) c) all_types) synonyms = true) by (vm_compute; reflexivity).
  rewrite forallb_forall in A. specialize (A _ I). rewrite forallb_forall in A. specialize (A c (all_types_in c)). cbn [fst snd] in A. rewrite String.eqb_refl in A. exact A.
Qed.
Lemma find_syn : forall s, (exists v, de_synonym s = v /\ In (s, v) synonyms) \/ de_synonym s = s.
Proof.
  intros s. unfold de_synonym. destruct (List.find _ synonyms) as [[k v]|] eqn:E; [left|right; reflexivity]. apply find_some in E. destruct E as [I J]. apply String.eqb_eq in J. subst k. exists v. auto.
Qed.
Lemma base_name_means : forall n sz c, base_name n sz = Some (ct_name c) -> means n sz c.
Proof.
  intros n sz c H. unfold base_name in H. destruct (String.eqb_spec (de_synonym n) "complex") as [E|E].
  - right. assert (n = "complex"%string) as ->.
    { destruct (find_syn n) as [[v [X I]]|X]; [|congruence]. exfalso. rewrite E in X. subst v. assert (A : forallb (fun p => negb (String.eqb (snd p) "complex")) synonyms = true) by (vm_compute; reflexivity). rewrite forallb_forall in A. specialize (A _ I). discriminate. }
    split; [reflexivity|]. destruct sz as [z|]; [|discriminate]. destruct z as [|p|p]; try discriminate. do 6 (try (destruct p as [p|p|]; try discriminate)); destruct c; try discriminate; reflexivity.
  - injection H as H. left. apply spells_ok. destruct (find_syn n) as [[v [X I]]|X]; [apply synonyms_ok; congruence|]. rewrite H in X. subst n. destruct c; vm_compute; reflexivity.
Qed.
Lemma enc_known : forall e x, enc_code (match e with Some z => encoding_text z | None => "" end) = x -> (3 <= x <= 9)%Z -> e = Some (x - 1)%Z.
Proof.
  intros e x E B. destruct e as [z|]; [|cbn in E; lia]. f_equal.
  assert (C : (z = 0 \/ z = 1 \/ z = 2 \/ z = 3 \/ z = 4 \/ z = 5 \/ z = 6 \/ z = 7 \/ z = 8 \/ z = 9 \/ z = 10 \/ z = 11 \/ z = 12 \/ z = 13 \/ z = 14 \/ z = 15 \/ z = 16 \/ z = 17 \/ z = 18 \/ z = 128 \/ z = 255)%Z \/ exists s, encoding_text z = ("Encoding(" ++ s)%string).
  { unfold encoding_text. destruct z as [|p|p]; [left; lia| |right; eexists; reflexivity]. do 8 (destruct p as [p|p|]; try (left; lia); try (right; eexists; reflexivity)). }
  destruct C as [C|[s C]]; [|rewrite C in E; cbn in E; lia]. repeat (destruct C as [->|C]; [cbn in E; lia|]). subst z. cbn in E. lia.
Qed.
Lemma check_base : forall fuel R r n z e name enc size, e_name (R r) = Some n -> e_info (R r) = IBase z e ->
  check_base_type fuel R (Some (St r)) name enc size = match fuel with O => OutOfFuel | _ => if String.eqb n name && ((e =? 0) || (e =? enc))%Z && ((z =? 0) || (z =? size))%Z then Ret 0%Z else Ret (- EINVAL)%Z end.
Proof. intros [|fuel] R r n z e name enc size N E; [reflexivity|]. unfold check_base_type, final_if, final_entry. cbn. rewrite E. cbn. rewrite E. cbn. rewrite N, E. reflexivity. Qed.
Lemma enc_code_pos : forall e, (enc_code e =? 0)%Z = false.
Proof.
  intros e. unfold enc_code. match goal with |- context [List.find ?f ?l] => destruct (List.find f l) as [[k v]|] eqn:E end; [|reflexivity].
  apply find_some in E. destruct E as [I _]. cbn in I. repeat (destruct I as [I|I]; [injection I as <- <-; reflexivity|]). destruct I.
Qed.

Section Base.
Variables (data : nat -> option die) (parent : nat -> nat) (L : list (nat * object)) (W : list (nat * other)) (st : index).
Hypothesis Ge : generated data parent L st.
Variables (i : nat) (d : die) (n : string).
Hypothesis Di : declared_in data i.
Hypothesis D : data i = Some d.
Hypothesis T : d_tag d = DBase.
Hypothesis Nm : d_name d = Some n.
Hypothesis Or : i_dup st (parent i) = false \/ In (i_rep st i) (i_db st).

Lemma base_entry : exists n', base_name n (d_size d) = Some n' /\ e_name (run_time L W st (ty (i_rep st i))) = Some n' /\
  e_info (run_time L W st (ty (i_rep st i))) = IBase (or0 (d_size d)) (enc_code (match d_encoding d with Some z => encoding_text z | None => "" end)).
Proof.
  assert (Ki : kind_in data type_tag i) by (exists d; split; [exact D|rewrite T; exact Logic.I]).
  pose proof Ge as [Tr [bf B] GO One Nest _ NBs [df [order [Nd [Cv De]]]]]. destruct (declared_made data _ _ B i Di Ki) as [a A].
  pose proof (dedup_agrees (made L) parent GO df order st One Nest Nd Cv De i ltac:(rewrite A; discriminate) Or) as [Q [K q]].
  destruct (K _ _ q) as [a' [b [Ga [Hb [Nb [Sk Al]]]]]]. rewrite A in Ga. injection Ga as <-.
  destruct (build_ok data _ _ B) as [R _]. pose proof (R _ _ (made_in _ _ _ A)) as Ra.
  assert (P : base_type d = Ok a).
  { destruct Ra as [i' d' a D' P | i' d' t rs k a D' T' Ty Te Sr J].
    - rewrite D in D'. injection D' as <-. unfold plain_object in P. rewrite T in P. exact P.
    - exfalso. destruct (right_key data k a (r_array data i' d' t rs k a D' T' Ty Te Sr J)) as [_|[x [_ [_ [dk [Dk Tk]]]]]].
      + destruct (process_array_in i' (d_name d') (declared_die d') (d_size d') (d_align d') (d_stride d') t rs) as [y [rest [Y [_ [_ [_ [Ma _]]]]]]]. rewrite Y in J. destruct J as [J|J]; [injection J as -> _; congruence|].
        destruct (subranges_in _ _ _ Sr) as [S1 S2]. assert (Jk : In k (d_children d')) by (rewrite <- S1; apply (in_map fst) in J; rewrite Ma in J; cbn in J; destruct rs; [destruct J|right; exact J]).
        destruct (S2 _ Jk) as [dk [Dk Tk]]. congruence.
      + congruence. }
  unfold base_type in P. rewrite Nm in P. destruct (base_name n (d_size d)) as [n'|] eqn:Bn; [|discriminate]. destruct (_ || _); [discriminate|]. exists n'. split; [reflexivity|].
  assert (Da : o_decl a = false) by (injection P as <-; cbn; apply declared_not; exact (NBs _ _ D T)).
  assert (Bo : o_body a = BaseType (match d_encoding d with Some z => encoding_text z | None => "" end) /\ o_size a = d_size d /\ o_name a = Some n') by (injection P as <-; cbn; auto). destruct Bo as [Bo [So No]].
  assert (Eb : exists e, o_body b = BaseType e) by (rewrite Bo in Sk; inversion Sk; eauto). destruct Eb as [e Eb].
  assert (Db : o_decl b = false).
  { destruct (db_graph_in _ _ _ _ Hb) as [o [Go ->]]. cbn in Eb |- *. assert (Eo : o_body o = BaseType e) by (destruct (o_body o); cbn in Eb; congruence). pose proof (R _ _ (made_in _ _ _ Go)) as Rr.
    destruct Rr as [j dj o Dj P' | j dj t rs k o Dj Tj Ty Te Sr J].
    - unfold plain_object in P'. destruct (d_tag dj) eqn:Tj; try (un P' l E; injection P' as <-; discriminate); try discriminate; try (injection P' as <-; discriminate).
      + unfold base_type in P'. destruct (d_name dj) as [nj|]; [|discriminate]. destruct (base_name nj (d_size dj)); [|discriminate]. match type of P' with context [if ?b then _ else _] => destruct b; [discriminate|] end. injection P' as <-. cbn. apply declared_not. exact (NBs _ _ Dj Tj).
      + un P' l E. un P' l' E'. injection P' as <-. discriminate.
      + destruct (d_name dj); [|discriminate]. un P' l E. injection P' as <-. discriminate.
    - destruct (process_array_links _ _ _ _ _ _ _ _ _ _ J) as [? [? [? [? [? [Bx _]]]]]]. congruence. }
  specialize (Al Da Db). unfold run_time. rewrite (printed_ty _ _ _ _ Hb). cbn. split; [congruence|]. unfold type_info. destruct Al; try congruence. rewrite H0. f_equal; [congruence|]. f_equal. congruence.
Qed.
Theorem base_sound : forall fuel c, entry_is fuel (run_time L W st) (Some (St (ty (i_rep st i)))) c = Ret true ->
  means n (d_size d) c /\ (exists e, d_encoding d = Some e /\ dw_encoding_of c e) /\ (d_size d = Some (size_of c) \/ d_size d = None \/ d_size d = Some 0%Z).
Proof.
  intros fuel c H. destruct base_entry as [n' [Bn [En Ei]]]. set (R := run_time L W st) in *. set (r := ty (i_rep st i)) in *. set (e := enc_code (match d_encoding d with Some z => encoding_text z | None => "" end)) in *.
  assert (C : exists enc, (enc = ct_enc c \/ c = CChar /\ enc = 9%Z) /\ check_base_type fuel R (Some (St r)) (ct_name c) enc (ct_size c) = Ret 0%Z).
  { unfold entry_is in H. destruct (check_base_type fuel R (Some (St r)) (ct_name c) (ct_enc c) (ct_size c)) as [x| | |] eqn:E; try discriminate. cbn [bind] in H.
    destruct (x =? 0)%Z eqn:X; [apply Z.eqb_eq in X; subst x; exists (ct_enc c); auto|]. destruct c; try (injection H as H; discriminate).
    destruct (check_base_type fuel R (Some (St r)) (ct_name CChar) 9 (ct_size CChar)) as [y| | |] eqn:E2; try discriminate. cbn [bind] in H. injection H as H. apply Z.eqb_eq in H. subst y. exists 9%Z. auto. }
  destruct C as [enc [Oe C]]. rewrite (check_base fuel R r n' _ _ _ _ _ En Ei) in C. destruct fuel; [discriminate|].
  destruct (_ && _) eqn:B; [|discriminate]. apply andb_true_iff in B. destruct B as [B Bs]. apply andb_true_iff in B. destruct B as [B Be]. apply String.eqb_eq in B. subst n'.
  split; [apply base_name_means; exact Bn|]. split.
  - unfold e in Be. rewrite enc_code_pos in Be. cbn [orb] in Be. apply Z.eqb_eq in Be. exists (enc - 1)%Z. split; [apply enc_known with (x := enc); [exact Be|]|].
    + destruct Oe as [->|[-> ->]]; [destruct c; cbn; lia|lia].
    + destruct Oe as [->|[-> ->]]; [destruct c; cbn; auto|cbn; auto].
  - destruct (d_size d) as [s|]; [|auto]. cbn in Bs. apply orb_true_iff in Bs. destruct Bs as [Bs|Bs]; apply Z.eqb_eq in Bs; subst; [auto|]. left. destruct c; reflexivity.
Qed.
Theorem base_known : forall c e, In n (compilers c) -> d_encoding d = Some e -> dw_encoding_of c e -> d_size d = Some (size_of c) ->
  forall fuel, entry_is (S fuel) (run_time L W st) (Some (St (ty (i_rep st i)))) c = Ret true.
Proof.
  intros c e I De Oe Sz fuel. destruct base_entry as [n' [Bn [En Ei]]]. rewrite Sz in Bn, Ei. rewrite De in Ei. cbn [or0] in Ei.
  assert (n' = ct_name c) as -> by (destruct c; cbn in I; repeat (destruct I as [<-|I]; [cbv in Bn; injection Bn as <-; reflexivity|]); destruct I).
  unfold entry_is. rewrite !(check_base (S fuel) _ _ _ _ _ _ _ _ En Ei). destruct c; cbn in Oe; try (subst e; reflexivity). destruct Oe as [->| ->]; reflexivity.
Qed.
End Base.

(** ** The builder ends *)
Section Ends.
Variable data : nat -> option die.
Variable rank : nat -> nat.
Hypothesis Rk : forall i c, child data i c -> (rank c < rank i)%nat.
Definition fine {A} (x : out A) : Prop := x <> Nofuel.
Lemma fine_bind : forall A B (x : out A) (f : A -> out B), fine x -> (forall a, x = Ok a -> fine (f a)) -> fine (obind x f).
Proof. intros A B [a| | |] f X F; cbn; try discriminate; [apply F; reflexivity|contradiction X; reflexivity]. Qed.
Lemma fine_link : forall d, fine (link_of data d).
Proof. intros d. unfold link_of, type_entry. destruct (d_type d) as [j|]; [|discriminate]. destruct (data j); [|discriminate]. destruct (is_type_tag _); discriminate. Qed.
Lemma fine_subranges : forall l, fine (subranges data l).
Proof. induction l as [|c r IH]; [discriminate|]. cbn. destruct (data c) as [d|]; [|discriminate]. destruct (d_tag d); try discriminate. apply fine_bind; [exact IH|discriminate]. Qed.
Lemma fine_enum : forall l, fine (enumerators data l).
Proof. induction l as [|c r IH]; [discriminate|]. cbn. destruct (data c) as [d|]; [|discriminate]. destruct (d_tag d); try discriminate. destruct (d_name d); [|discriminate]. destruct (d_value d); [|discriminate]. apply fine_bind; [exact IH|discriminate]. Qed.
Lemma fine_func : forall f l dots acc, (forall c a, In c l -> fine (f c a)) -> fine (func_params data f dots l acc).
Proof.
  intros f. induction l as [|c r IH]; intros dots acc F; [discriminate|]. assert (F' : forall c a, In c r -> fine (f c a)) by (intros; apply F; right; assumption). cbn. destruct (data c) as [d|]; [|discriminate].
  destruct (d_tag d); try (apply fine_bind; [apply F; left; reflexivity|intros a _; apply IH; exact F']); (destruct dots; [discriminate|]); try (apply IH; exact F');
    (apply fine_bind; [apply fine_link|]; intros t _; apply fine_bind; [apply IH; exact F'|]; intros [ps a'] _; discriminate).
Qed.
Lemma fine_struct : forall f g l acc, (forall c a, In c l -> fine (f c a)) -> fine (struct_children data f g l acc).
Proof.
  intros f g. induction l as [|c r IH]; intros acc F; [discriminate|]. assert (F' : forall c a, In c r -> fine (f c a)) by (intros; apply F; right; assumption). cbn. destruct (data c) as [d|]; [|discriminate].
  destruct (d_tag d); try (apply IH; exact F');
    try (apply fine_bind; [apply F; left; reflexivity|]; intros y _; destruct (fst y); [|discriminate]; apply fine_bind; [apply IH; exact F'|]; intros [[fs hs] a'] _; discriminate).
  apply fine_bind; [|intros m _; apply fine_bind; [apply IH; exact F'|]; intros [[fs hs] a'] _; discriminate]. unfold member, type_entry. destruct (d_type d) as [j|]; [|discriminate]. destruct (data j); [|discriminate].
  destruct (is_type_tag _); [|discriminate]. cbn [obind]. destruct (_ && _); [discriminate|]. destruct (_ && _); discriminate.
Qed.
Lemma fine_scope : forall f b l acc, (forall c a, In c l -> fine (f c a)) -> fine (scope data f b l acc).
Proof.
  intros f b. induction l as [|c r IH]; intros acc F; [discriminate|]. assert (F' : forall c a, In c r -> fine (f c a)) by (intros; apply F; right; assumption). cbn. destruct (data c) as [d|]; [|discriminate].
  destruct (b && _); [apply IH; exact F'|]. apply fine_bind; [apply F; left; reflexivity|]. intros y _. destruct (b && _); [discriminate|]. apply IH. exact F'.
Qed.
Lemma fine_process : forall fuel i acc, (rank i < fuel)%nat -> fine (process data fuel i acc).
Proof.
  induction fuel as [|fuel IH]; intros i acc Lt; [lia|]. cbn [process]. destruct (data i) as [d|] eqn:D; [|discriminate].
  assert (F : forall c a, In c (d_children d) -> fine (process data fuel c a)) by (intros c a I; apply IH; specialize (Rk i c (ex_intro _ d (conj D I))); lia).
  assert (One : forall x : out object, fine x -> fine (try o <- x; Ok (true, (i, o) :: acc))) by (intros x X; apply fine_bind; [exact X|discriminate]).
  assert (Lk : forall f : option nat -> object, fine (try t <- link_of data d; Ok (f t))) by (intros f; apply fine_bind; [apply fine_link|discriminate]).
  destruct (d_tag d); try discriminate; try (apply One; apply Lk).
  - apply One. unfold base_type. destruct (d_name d); [|discriminate]. destruct (base_name _ _); [|discriminate]. destruct (_ || _); discriminate.
  - apply One. apply fine_bind; [apply fine_enum|discriminate].
  - apply fine_bind; [apply fine_subranges|]. intros rs _. destruct (d_type d) as [t|]; [|discriminate]. apply fine_bind; [|discriminate]. unfold type_entry. destruct (data t); [|discriminate]. destruct (is_type_tag _); discriminate.
  - apply One. apply fine_bind; [apply fine_link|]. intros t _. apply fine_bind; [apply fine_func; discriminate|discriminate].
  - apply One. destruct (d_name d); [apply Lk|discriminate].
  - apply fine_bind; [apply fine_struct; exact F|]. intros [[fs hs] a] _. discriminate.
  - apply fine_bind; [apply fine_link|discriminate].
  - apply fine_bind; [apply fine_scope; exact F|discriminate].
  - apply fine_bind; [apply fine_link|]. intros t _. apply fine_bind; [|discriminate]. apply fine_func. intros c a I. apply fine_bind; [apply F; exact I|discriminate].
  - apply fine_bind; [apply fine_scope; exact F|discriminate].
Qed.
Lemma fine_units : forall fuel l acc, (forall u, In u l -> (rank u <= fuel)%nat) -> fine (units data fuel l acc).
Proof.
  intros fuel. induction l as [|u r IH]; intros acc Lt; [discriminate|]. cbn. destruct (data u) as [d|] eqn:D; [|discriminate]. destruct (d_tag d); try discriminate. destruct (d_name d); [|discriminate].
  apply fine_bind; [|intros a _; apply IH; intros v I; apply Lt; right; exact I]. apply fine_scope. intros c a I. apply fine_process. specialize (Rk u c (ex_intro _ d (conj D I))). specialize (Lt u (or_introl eq_refl)). lia.
Qed.
End Ends.
Theorem build_ends : forall data, tree data -> exists n, forall fuel, (n <= fuel)%nat -> build data fuel <> Nofuel.
Proof.
  intros data Tr. destruct (tr_ends _ Tr) as [rank Rk]. exists (rank 0%nat). intros fuel Lf. unfold build. destruct (data 0%nat) as [d|] eqn:D; [|discriminate]. apply (fine_units data rank Rk). intros u I. specialize (Rk 0%nat u (ex_intro _ d (conj D I))). lia.
Qed.
