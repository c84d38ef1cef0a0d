From Coq Require Import ZArith String Ascii List Bool Lia Sorted FinFun.
From Verif Require Import Base EntryModel EntryProof TplModel TplSpec TplProof TplProof2 NamesModel NamesSpec.
Import ListNotations.
Open Scope string_scope.
Open Scope list_scope.
Open Scope Z_scope.

Definition nm (o : option string) : string := match o with Some s => s | None => "" end.
Lemma key_nm : forall o, key_of o = to_json (nm o).
Proof. destruct o; reflexivity. Qed.
Lemma json_inj : forall a b, to_json a = to_json b -> a = b.
Proof. intros a b H. rewrite <- (literal_json a), <- (literal_json b), H. reflexivity. Qed.
Definition some_list (l : list string) : option (list string) := match l with [] => None | _ => Some l end.
Lemma add_names : forall l d, ordered d -> (forall k v, In (k, v) d -> exists n, k = to_json n) ->
  let d' := fold_left add_name l d in
  ordered d' /\ (forall k v, In (k, v) d' -> exists n, k = to_json n) /\
  forall n, get d' (to_json n) = match get d (to_json n) with Some v => Some (v ++ called n l) | None => some_list (called n l) end.
Proof.
  induction l as [|[i o] l IH]; intros d O K; cbn [fold_left].
  - cbv zeta. split; [exact O|]. split; [exact K|]. intros n. unfold called. cbn [filter map]. destruct (get d (to_json n)) as [v|]; [rewrite app_nil_r|]; reflexivity.
  - set (d1 := add_name d (i, o)).
    assert (O1 : ordered d1). { unfold d1, add_name. cbn. destruct (get d (key_of o)); apply set_ordered; auto. }
    assert (K1 : forall k v, In (k, v) d1 -> exists n, k = to_json n).
    { intros k v I. unfold d1, add_name in I. cbn in I. destruct (get d (key_of o)); apply set_in in I; destruct I as [[= -> _]|I]; eauto; exists (nm o); apply key_nm. }
    destruct (IH d1 O1 K1) as [A [B C]]. cbv zeta. split; [exact A|]. split; [exact B|]. intros n. rewrite C.
    unfold called. cbn [filter snd]. change (match o with Some s => s | None => "" end) with (nm o).
    unfold d1, add_name. cbn [fst snd]. rewrite key_nm.
    destruct (String.eqb_spec n (nm o)) as [->|N].
    + cbn [map fst]. destruct (get d (to_json (nm o))) as [v|] eqn:G; rewrite get_set by auto; rewrite String.eqb_refl.
      * rewrite <- app_assoc. reflexivity.
      * reflexivity.
    + assert (E : String.eqb (to_json n) (to_json (nm o)) = false). { apply String.eqb_neq. intros E. apply N, json_inj, E. }
      destruct (get d (to_json (nm o))) as [v|] eqn:G; rewrite get_set by auto; rewrite E; reflexivity.
Qed.
Lemma nodup_sorted : forall A (d : dict A), ordered d -> NoDup (map fst d).
Proof.
  induction 1 as [|[k v] d O IH F]; cbn; constructor; auto. intros I. apply in_map_iff in I. destruct I as [[j w] [E J]]. cbn in E. subst j.
  rewrite Forall_forall in F. specialize (F _ J). cbn in F. rewrite strcmp_refl in F. discriminate.
Qed.
Lemma names_listed : forall obj l,
  let p := printed_names obj l in
  n_count p = Z.of_nat (length (n_items p)) /\ NoDup (map fst (n_items p)) /\
  (forall n c es, In (n, (c, es)) (n_items p) <-> called n l <> [] /\ es = map obj (called n l) /\ c = Z.of_nat (length es)).
Proof.
  intros obj l. cbv zeta. unfold printed_names. destruct (Z.of_nat (length l) =? 0) eqn:Z0.
  - assert (l = []) by (destruct l; [reflexivity|cbn [length] in Z0; apply Z.eqb_eq in Z0; lia]). subst l. cbn. split; [reflexivity|]. split; [constructor|]. intros. split; [intros []|intros [[] _]; reflexivity].
  - cbn [n_count n_items]. unfold name_to_entries.
    destruct (add_names l [] (SSorted_nil _) (fun k v (H : In (k, v) []) => match H with end)) as [A [B C]].
    set (d := fold_left add_name l []) in *.
    rewrite map_length. split; [reflexivity|].
    assert (M : map fst (map (fun '(k, ids) => (literal k, (Z.of_nat (length ids), map obj ids))) d) = map literal (map fst d)).
    { rewrite !map_map. apply map_ext. intros [k v]. reflexivity. }
    split.
    + rewrite M. assert (ND := nodup_sorted _ _ A).
      assert (J : forall k, In k (map fst d) -> exists n, k = to_json n). { intros k I. apply in_map_iff in I. destruct I as [[k' v] [<- I]]. eapply B, I. }
      clear - ND J. induction (map fst d) as [|k r IH]; [constructor|]. inversion ND as [|? ? N1 N2]; subst. cbn. constructor.
      * intros I. apply in_map_iff in I. destruct I as [k' [E I]]. destruct (J k (or_introl eq_refl)) as [a ->]. destruct (J k' (or_intror I)) as [b ->].
        rewrite !literal_json in E. subst. contradiction.
      * apply IH; auto. intros; apply J; right; auto.
    + intros n c es. rewrite in_map_iff. split.
      * intros [[k v] [E I]]. injection E as E1 E2 E3. destruct (B _ _ I) as [a ->]. rewrite literal_json in E1. subst a.
        apply get_in in I; auto. rewrite C in I. cbn in I. destruct (called n l) as [|x r]; [discriminate|]. injection I as <-.
        subst. split; [discriminate|]. split; [reflexivity|]. rewrite map_length. reflexivity.
      * intros [Q [-> ->]]. exists (to_json n, called n l). rewrite literal_json, map_length. split; [reflexivity|].
        apply get_in; auto. rewrite C. cbn. destruct (called n l); [congruence|reflexivity].
Qed.

(** ** The link *)
Lemma load_split : forall m a, load m a 8 = load m a 4 + 2 ^ 32 * load m (a + 4) 4.
Proof.
  intros. cbn [load]. replace (a + 1 + 1) with (a + 2) by lia. replace (a + 2 + 1) with (a + 3) by lia. replace (a + 3 + 1) with (a + 4) by lia.
  generalize (m a) (m (a + 1)) (m (a + 2)) (m (a + 3)). intros. set (r := (m (a + 4) + _)). lia.
Qed.
Lemma link_null : forall sym m gm a, sym (db_symbol gm) = Some a -> db_image m a -> db_link_ptr sym m gm = Some 0.
Proof.
  intros sym m gm a S [A B]. unfold db_link_ptr. rewrite S. destruct (a =? 0); [reflexivity|]. rewrite load_split, A, B. reflexivity.
Qed.
Lemma db_symbol_inj : forall a b, db_symbol a = db_symbol b -> a = b.
Proof.
  intros a b H. unfold db_symbol in H. cbn in H. injection H as H. revert b H. induction a as [|x a IH]; intros [|y b] H; auto.
  - exfalso. assert (L := f_equal String.length H). cbn in L. rewrite app_length_s in L. cbn in L. lia.
  - exfalso. assert (L := f_equal String.length H). cbn in L. rewrite app_length_s in L. cbn in L. lia.
  - cbn in H. injection H as -> H. f_equal. apply IH, H.
Qed.

(** ** Tests *)
Lemma test_of_spec : forall i, map (fun r => ("metac__" ++ "test" ++ "_" ++ r)%string) (test_of i) = if test_variable i then [name_of i] else [].
Proof.
  intros i. unfold test_of, test_variable, name_of. destruct (i_kind i); auto. destruct (i_name i) as [n|]; auto.
  destruct (trim_prefix "metac__" n) as [s|] eqn:T.
  - apply trim_spec in T. subst n. destruct (split_first s) as [[t r]|] eqn:F.
    + destruct (String.eqb_spec t "test") as [->|N].
      * apply split_first_spec in F; [|reflexivity]. subst s. replace (String.prefix _ _) with true; [reflexivity|]. symmetry. apply prefix_spec. exists r. reflexivity.
      * replace (String.prefix _ _) with false; [reflexivity|]. symmetry. apply not_true_iff_false. intros P. apply prefix_spec in P. destruct P as [q P].
        cbn in P. injection P as P. assert (split_first s = Some ("test", q)) by (apply split_first_spec; [reflexivity|exact P]). congruence.
    + replace (String.prefix _ _) with false; [reflexivity|]. symmetry. apply not_true_iff_false. intros P. apply prefix_spec in P. destruct P as [q P].
      cbn in P. injection P as P. assert (split_first s = Some ("test", q)) by (apply split_first_spec; [reflexivity|exact P]). congruence.
  - replace (String.prefix _ _) with false; [reflexivity|]. symmetry. apply not_true_iff_false. intros P. apply prefix_spec in P. destruct P as [q P].
    assert (trim_prefix "metac__" n = Some ("test_" ++ q)%string) by (apply trim_spec; exact P). congruence.
Qed.
Lemma tests_run : forall T (value : string -> T) cus, main_tests value cus = map value (test_variables cus).
Proof.
  intros T value cus. unfold main_tests, tests, test_variables.
  rewrite <- (map_map (fun r => ("metac__" ++ "test" ++ "_" ++ r)%string) value). f_equal.
  induction cus as [|[cu h] cus IH]; [reflexivity|]. cbn [flat_map snd]. rewrite map_app, filter_app, map_app, IH. f_equal.
  clear. induction h as [|i h IH]; [reflexivity|]. cbn [flat_map filter]. rewrite map_app, IH, test_of_spec. destruct (test_variable i); reflexivity.
Qed.
Lemma tests_once : forall T (value : string -> T) cus, NoDup (test_variables cus) -> (forall a b, value a = value b -> a = b) ->
  NoDup (main_tests value cus) /\ forall n, In (value n) (main_tests value cus) <-> In n (test_variables cus).
Proof.
  intros T value cus N J. rewrite tests_run. split.
  - apply FinFun.Injective_map_NoDup; auto.
  - intros n. rewrite in_map_iff. split; [intros [k [E I]]; apply J in E; subst; auto|eauto].
Qed.
