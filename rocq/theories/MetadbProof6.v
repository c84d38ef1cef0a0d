(** Ids and arrays in the database (C66, C68); finite graphs. *)
From Coq Require Import ZArith String Ascii List Bool Lia Decimal DecimalString DecimalZ DecimalPos.
From Verif Require Import Base MetadbModel MetadbSpec MetadbProof.
Import ListNotations.
Open Scope string_scope.

(** * Ids *)
Definition value (s : string) : Z := match NilEmpty.uint_of_string s with Some u => Z.of_uint u | None => -1 end.
Lemma value_zero : forall s, value (String "0" s) = value s.
Proof. intros s. unfold value. cbn. destruct (NilEmpty.uint_of_string s); reflexivity. Qed.
Lemma value_dec : forall n, value (dec (Z.of_nat n)) = Z.of_nat n.
Proof.
  intros n. unfold dec. destruct n as [|n]; [reflexivity|]. cbn [Z.of_nat Z.to_int NilZero.string_of_int]. set (p := Pos.of_succ_nat n). pose proof (DecimalPos.Unsigned.to_uint_nonnil p) as Ne.
  assert (E : NilZero.string_of_uint (Pos.to_uint p) = NilEmpty.string_of_uint (Pos.to_uint p)) by (destruct (Pos.to_uint p); [destruct Ne; reflexivity|reflexivity..]). rewrite E. unfold value. rewrite NilEmpty.usu. unfold Z.of_uint. rewrite DecimalPos.Unsigned.of_to. reflexivity.
Qed.
Lemma dec4_inj : forall n m, dec4 n = dec4 m -> n = m.
Proof.
  intros n m E. assert (V : forall k, value (dec4 k) = Z.of_nat k).
  { intros k. rewrite <- (value_dec k). unfold dec4. destruct (String.length (dec (Z.of_nat k))) as [|[|[|[|l]]]]; cbn [append]; rewrite ?value_zero; reflexivity. }
  apply Nat2Z.inj. rewrite <- V, E, V. reflexivity.
Qed.
Lemma dec4_no : forall n, no "_" (dec4 n) = true.
Proof.
  intros n. pose proof (dec_no "_" (Z.of_nat n) eq_refl) as D. unfold dec4. destruct (String.length _) as [|[|[|[|l]]]]; try assumption; cbn [append]; rewrite ?no_cons, D; reflexivity.
Qed.
Lemma last_split : forall c d e, no c d = true -> no c e = true -> forall p q, p ++ String c d = q ++ String c e -> p = q /\ d = e.
Proof.
  intros c d e D E. assert (H : forall r s t, no c s = true -> s = r ++ String c t -> False).
  { intros r s t N X. subst s. rewrite no_app, no_cons, Ascii.eqb_refl in N. cbn in N. rewrite andb_false_r in N. discriminate. }
  intros p. induction p as [|x p IH]; intros q X; destruct q as [|y q]; cbn in X.
  - injection X as X. auto.
  - injection X as <- X. destruct (H _ _ _ D X).
  - injection X as -> X. symmetry in X. destruct (H _ _ _ E X).
  - injection X as <- X. destruct (IH q X) as [-> ->]. auto.
Qed.
Lemma id_inj : forall p q n m, p ++ "_" ++ dec4 n = q ++ "_" ++ dec4 m -> p = q /\ n = m.
Proof. intros p q n m E. destruct (last_split "_" _ _ (dec4_no n) (dec4_no m) p q E) as [-> D]. split; [reflexivity|exact (dec4_inj _ _ D)]. Qed.
Definition start (names : list (string * nat)) (p : string) : nat := match count_of names p with None => 0%nat | Some c => S c end.
Lemma ids_nth : forall objs names k kind name, nth_error objs k = Some (kind, name) ->
  nth_error (ids names objs) k = Some (prefix_of kind name ++ "_" ++ dec4 (start names (prefix_of kind name) + earlier (prefix_of kind name) objs k)).
Proof.
  intros objs. induction objs as [|[kd nm] objs IH]; intros names k kind name E; [destruct k; discriminate|]. cbn [ids next_id]. destruct k as [|k]; cbn [nth_error] in *.
  - injection E as -> ->. unfold earlier. cbn. rewrite Nat.add_0_r. reflexivity.
  - rewrite (IH _ k kind name E). f_equal. f_equal. f_equal. f_equal. unfold earlier. cbn [firstn filter]. unfold start. cbn [count_of]. destruct (prefix_of kd nm =? prefix_of kind name) eqn:P; [|reflexivity].
    apply String.eqb_eq in P. rewrite <- P. cbn [List.length]. destruct (count_of names (prefix_of kd nm)); lia.
Qed.
Lemma ids_length : forall objs names, List.length (ids names objs) = List.length objs.
Proof. intros objs. induction objs as [|[kd nm] objs IH]; intros names; cbn; [reflexivity|]. rewrite IH. reflexivity. Qed.
Lemma earlier_mono : forall p objs j k, (j < k)%nat -> (exists kind name, nth_error objs j = Some (kind, name) /\ prefix_of kind name = p) -> (earlier p objs j < earlier p objs k)%nat.
Proof.
  intros p objs. unfold earlier. induction objs as [|[kd nm] objs IH]; intros j k L [kind [name [N P]]]; [destruct j; discriminate|]. destruct k as [|k]; [lia|]. destruct j as [|j]; cbn [nth_error] in N.
  - injection N as -> ->. cbn [firstn filter List.length]. rewrite P, String.eqb_refl. cbn. lia.
  - specialize (IH j k ltac:(lia) (ex_intro _ kind (ex_intro _ name (conj N P)))). cbn [firstn filter]. destruct (prefix_of kd nm =? p); cbn [List.length]; lia.
Qed.
Theorem ids_ok : forall objs, List.length (ids [] objs) = List.length objs /\ NoDup (ids [] objs) /\
  (forall k kind name, nth_error objs k = Some (kind, name) -> nth_error (ids [] objs) k = Some (prefix_of kind name ++ "_" ++ dec4 (earlier (prefix_of kind name) objs k))).
Proof.
  intros objs. split; [apply ids_length|]. assert (X : forall k kind name, nth_error objs k = Some (kind, name) -> nth_error (ids [] objs) k = Some (prefix_of kind name ++ "_" ++ dec4 (earlier (prefix_of kind name) objs k))) by (intros k kind name E; exact (ids_nth objs [] k kind name E)).
  split; [|exact X]. apply NoDup_nth_error. intros i j L E. rewrite ids_length in L.
  destruct (nth_error objs i) as [[k1 n1]|] eqn:Ei; [|apply nth_error_None in Ei; lia]. rewrite (X i k1 n1 Ei) in E. destruct (nth_error objs j) as [[k2 n2]|] eqn:Ej; [|assert (Y : nth_error (ids [] objs) j = None) by (apply nth_error_None; rewrite ids_length; apply nth_error_None; assumption); congruence].
  rewrite (X j k2 n2 Ej) in E. injection E as E. destruct (id_inj _ _ _ _ E) as [P C]. destruct (Nat.lt_trichotomy i j) as [Lt|[Eq|Lt]]; [|assumption|].
  - pose proof (earlier_mono (prefix_of k1 n1) objs i j Lt (ex_intro _ k1 (ex_intro _ n1 (conj Ei eq_refl)))). rewrite P in *. lia.
  - pose proof (earlier_mono (prefix_of k2 n2) objs j i Lt (ex_intro _ k2 (ex_intro _ n2 (conj Ej eq_refl)))). rewrite P in *. lia.
Qed.

Lemma dec4_padded : forall n, dec4 n = padded n.
Proof.
  intros n. unfold dec4, padded. destruct (String.length (dec (Z.of_nat n))) as [|[|[|[|l]]]] eqn:E; try reflexivity. exfalso.
  assert (X : dec (Z.of_nat n) = ""%string) by (destruct (dec (Z.of_nat n)); [reflexivity|discriminate]). pose proof (value_dec n) as Y. rewrite X in Y. cbn in Y. rewrite <- Y in X. discriminate.
Qed.
Theorem ids_padded : forall objs, List.length (ids [] objs) = List.length objs /\ NoDup (ids [] objs) /\
  (forall k kind name, nth_error objs k = Some (kind, name) -> nth_error (ids [] objs) k = Some (prefix_of kind name ++ "_" ++ padded (earlier (prefix_of kind name) objs k))).
Proof. intros objs. destruct (ids_ok objs) as [A [B C]]. split; [exact A|]. split; [exact B|]. intros k kind name E. rewrite <- dec4_padded. exact (C k kind name E). Qed.

(** * Arrays *)
Definition dim (s : subrange) : option Z * Z := (s_lower s, range_count s).
Lemma range_count_ok : forall s, elements s (range_count s).
Proof. intros s. unfold elements, range_count. destruct (s_count s); [reflexivity|]. destruct (s_upper s); [|reflexivity]. destruct (s_lower s); lia. Qed.
Lemma stored_in : forall l i o, NoDup (map fst l) -> In (i, o) l -> stored l i = Some o.
Proof.
  intros l i o N I. induction l as [|[j x] l IH]; [destruct I|]. cbn in N. inversion N as [|? ? Nj N']; subst. unfold stored. cbn [List.find]. destruct I as [I|I].
  - injection I as -> ->. rewrite Nat.eqb_refl. reflexivity.
  - destruct (Nat.eqb_spec j i) as [->|Ne]; [destruct Nj; apply in_map_iff; exists (i, o); auto|]. exact (IH N' I).
Qed.
(** the arrays stored so far: [t] is an array of dimensions [ds] of [e], or [e] itself *)
Lemma loop_ok : forall ranges child t acc e ds, (ds = [] /\ t = e \/ (exists d ds', ds = d :: ds') /\ (forall G, (forall i o, In (i, o) acc -> G i = Some o) -> is_array G e t ds)) -> List.length ds = child -> ranges <> [] ->
  exists e' l c acc', array_loop child t ranges acc = Some (Array (Some e') None l c (Z.of_nat (child + List.length ranges - 1)), acc') /\ map fst acc' = (List.rev (map s_index (removelast ranges)) ++ map fst acc)%list /\
    (forall i o, In (i, o) acc -> In (i, o) acc') /\
    (forall G i o s v, (forall i o, In (i, o) acc' -> G i = Some o) -> G i = Some o -> o_body o = Array (Some e') s l c v -> v = Z.of_nat (child + List.length ranges - 1) -> is_array G e i (List.rev (map dim ranges) ++ ds)%list).
Proof.
  intros ranges. induction ranges as [|s ranges IH]; intros child t acc e ds T L N; [destruct N; reflexivity|]. cbn [array_loop]. destruct ranges as [|s2 ranges].
  - exists t, (s_lower s), (range_count s), acc. split; [cbn [List.length]; rewrite Nat.add_sub; reflexivity|]. split; [reflexivity|]. split; [auto|]. intros G i o st v A Gi B V. cbn [List.length] in V. rewrite Nat.add_sub in V. cbn [map List.rev app]. unfold dim at 1. subst v. destruct T as [[-> ->]|[[d [ds' ->]] T]].
    + cbn in L. subst child. exact (ia_last G e i o st _ _ Gi B).
    + subst child. apply (ia_more G e i o st _ _ t d ds' Gi B). apply T. assumption.
  - set (obj := {| o_name := None; o_decl := false; o_size := None; o_align := None; o_body := Array (Some t) None (s_lower s) (range_count s) (Z.of_nat child) |}).
    destruct (IH (S child) (s_index s) ((s_index s, obj) :: acc) e (dim s :: ds)) as [e' [l [c [acc' [E [K [In' H]]]]]]].
    + right. split; [eauto|]. intros G A. assert (Go : G (s_index s) = Some obj) by (apply A; left; reflexivity). assert (A' : forall i o, In (i, o) acc -> G i = Some o) by (intros i o I; apply A; right; assumption). unfold dim. destruct T as [[-> ->]|[[d [ds' ->]] T]].
      * cbn in L. subst child. exact (ia_last G e _ obj None _ _ Go eq_refl).
      * subst child. apply (ia_more G e _ obj None _ _ t d ds' Go eq_refl). apply T. assumption.
    + cbn. congruence.
    + discriminate.
    + exists e', l, c, acc'. replace (child + List.length (s :: s2 :: ranges) - 1)%nat with (S child + List.length (s2 :: ranges) - 1)%nat by (cbn [List.length]; lia). split; [exact E|]. split; [rewrite K; change (removelast (s :: s2 :: ranges)) with (s :: removelast (s2 :: ranges)); cbn [map fst List.rev]; rewrite <- app_assoc; reflexivity|]. split; [intros i o I; apply In'; right; assumption|].
      intros G i o st v A Gi B V. pose proof (H G i o st v A Gi B V) as R. cbn [map List.rev] in *. rewrite <- !app_assoc in *. exact R.
Qed.
Lemma removelast_rev : forall A (l : list A), removelast (List.rev l) = List.rev (tl l).
Proof. intros A l. destruct l as [|x l]; [reflexivity|]. cbn [List.rev tl]. rewrite removelast_last. reflexivity. Qed.
Theorem array_ok : forall index name decl size align stride t children, NoDup (index :: map s_index children) ->
  let G := stored (process_array index name decl size align stride t children) in
  (exists o e l c v, G index = Some o /\ o_name o = name /\ o_decl o = decl /\ o_size o = size /\ o_align o = align /\ o_body o = Array e stride l c v) /\
  (children = [] -> is_array G t index [(None, (-1)%Z)]) /\
  (children <> [] -> exists ds, is_array G t index ds /\ Forall2 (fun s d => fst d = s_lower s /\ elements s (snd d)) children ds).
Proof.
  intros index name decl size align stride t children N. cbn zeta. unfold process_array. destruct children as [|s0 children].
  - cbn. split; [|split].
    + eexists _, _, _, _, _. split; [unfold stored; cbn; rewrite Nat.eqb_refl; reflexivity|]. repeat split.
    + intros _. eapply ia_last; [unfold stored; cbn; rewrite Nat.eqb_refl; reflexivity|reflexivity].
    + intros X. destruct X. reflexivity.
  - destruct (loop_ok (List.rev (s0 :: children)) 0 t [] t []) as [e' [l [c [acc' [E [K [_ H]]]]]]].
    + left. auto.
    + reflexivity.
    + cbn. intros X. apply app_eq_nil in X. destruct X. discriminate.
    + rewrite E. rewrite app_nil_r, removelast_rev, map_rev, rev_involutive in K. cbn [tl] in K. rewrite rev_length in *. cbn [Nat.add] in *.
      set (obj := {| o_name := name; o_decl := decl; o_size := size; o_align := align; o_body := Array (Some e') stride l c (Z.of_nat (List.length (s0 :: children) - 1)) |}).
      assert (Nd : NoDup (map fst ((index, obj) :: acc'))).
      { cbn [map fst]. rewrite K. inversion N as [|? ? Ni N']; subst. cbn [map] in Ni, N'. inversion N'; subst. constructor; [intros X; apply Ni; right; assumption|assumption]. }
      assert (Gi : stored ((index, obj) :: acc') index = Some obj) by (apply stored_in; [assumption|left; reflexivity]).
      split; [|split].
      * eexists _, _, _, _, _. split; [exact Gi|]. repeat split.
      * discriminate.
      * intros _. exists (map dim (s0 :: children)). split.
        -- assert (A : forall i o, In (i, o) acc' -> stored ((index, obj) :: acc') i = Some o) by (intros i o I; apply stored_in; [assumption|right; assumption]).
           pose proof (H _ index obj stride _ A Gi eq_refl eq_refl) as R. rewrite app_nil_r, map_rev, rev_involutive in R. exact R.
        -- clear. induction (s0 :: children) as [|s l IH]; cbn; constructor; [|exact IH]. cbn. split; [reflexivity|apply range_count_ok].
Qed.

(** * Finite graphs: a check that the conditions hold *)
Definition tidyb (s : string) : bool := negb (s =? "") && forallb (fun c => negb (special c)) (list_ascii_of_string s).
Definition tidyb_opt (s : option string) : bool := match s with Some n => tidyb n | None => true end.
Definition object_okb (G : nat -> option object) (o : object) : bool :=
  tidyb_opt (o_name o) &&
  (match o_body o with
   | BaseType e => forallb (fun c => negb (special c)) (list_ascii_of_string e)
   | Enumeration l => forallb (fun '(k, _) => tidyb k) l
   | Struct _ fs hs => forallb (fun f => tidyb_opt (f_name f)) fs && forallb (fun h => match h with None => false | _ => true end) hs
   | _ => true
   end) &&
  (negb (needs_name (o_body o)) || match o_name o with None => false | _ => true end) &&
  (negb (o_decl o) || match o_name o with None => false | _ => true end) &&
  forallb (fun l => match l with None => true | Some j => match G j with None => false | _ => true end end) (links o).
Lemma tidyb_ok : forall s, tidyb s = true -> tidy s.
Proof.
  intros s H. unfold tidyb in H. apply andb_true_iff in H. destruct H as [A B]. split; [intros ->; discriminate|]. rewrite forallb_forall in B. apply Forall_forall. intros c I. specialize (B c I). apply negb_true_iff in B. assumption.
Qed.
Lemma tidyb_opt_ok : forall s, tidyb_opt s = true -> tidy_opt s.
Proof. intros s H n ->. apply tidyb_ok. assumption. Qed.
Lemma object_okb_ok : forall G o, object_okb G o = true -> object_ok G o.
Proof.
  intros G o H. unfold object_okb in H. rewrite !andb_true_iff in H. destruct H as [[[[A B] C] D] E]. constructor.
  - apply tidyb_opt_ok. assumption.
  - unfold tidy_body. destruct (o_body o) as [e|l|q t|t|t| |r t|ps t|t s l c v|g fs hs]; try exact Logic.I.
    + rewrite forallb_forall in B. apply Forall_forall. intros c I. specialize (B c I). apply negb_true_iff in B. assumption.
    + rewrite forallb_forall in B. apply Forall_forall. intros [k v] I. specialize (B _ I). cbn in B. apply tidyb_ok. assumption.
    + apply andb_true_iff in B. destruct B as [B _]. rewrite forallb_forall in B. apply Forall_forall. intros f I. apply tidyb_opt_ok. exact (B f I).
  - intros X Y. rewrite X, Y in C. discriminate.
  - intros X Y. rewrite X, Y in D. discriminate.
  - intros j I X. rewrite forallb_forall in E. specialize (E _ I). cbn in E. rewrite X in E. discriminate.
  - intros g fs hs X I. rewrite X in B. apply andb_true_iff in B. destruct B as [_ B]. rewrite forallb_forall in B. specialize (B _ I). discriminate.
Qed.
Definition grounded_b (l : list (nat * object)) (rank : nat -> nat) : bool :=
  forallb (fun '(i, o) => match o_name o with Some _ => true | None => forallb (fun t => match t with None => true | Some j => Nat.ltb (rank j) (rank i) end) (links o) end) l.
Lemma stored_out : forall l i o, stored l i = Some o -> In (i, o) l.
Proof. intros l i o E. unfold stored in E. destruct (List.find _ l) as [[j x]|] eqn:F; [|discriminate]. apply find_some in F. destruct F as [I Q]. apply Nat.eqb_eq in Q. injection E as <-. subst. assumption. Qed.
Lemma check_graph : forall l rank, forallb (fun '(_, o) => object_okb (stored l) o) l = true -> grounded_b l rank = true -> graph_ok (stored l).
Proof.
  intros l rank A B. split.
  - intros i o E. apply stored_out in E. rewrite forallb_forall in A. apply object_okb_ok. exact (A _ E).
  - exists rank. intros i o j E N I. apply stored_out in E. unfold grounded_b in B. rewrite forallb_forall in B. specialize (B _ E). cbn in B. rewrite N in B. rewrite forallb_forall in B. specialize (B _ I). cbn in B. apply Nat.ltb_lt. assumption.
Qed.
