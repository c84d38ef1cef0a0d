From Coq Require Import ZArith String Ascii List Bool Lia Sorted Permutation.
From Verif Require Import Base EntryModel EntrySpec EntryProof TplModel TplSpec.
From Verif Require MetadbModel MetadbProof MetadbProof6.
Import ListNotations.
Open Scope string_scope.
Open Scope list_scope.
Open Scope Z_scope.

(** ** strcmp *)
Lemma byte_of_inj : forall a b, byte_of a = byte_of b -> a = b.
Proof. intros a b H. unfold byte_of in H. apply N2Z.inj in H. rewrite <- (ascii_N_embedding a), <- (ascii_N_embedding b), H. reflexivity. Qed.
Lemma strcmp_opp : forall a b, strcmp b a = CompOpp (strcmp a b).
Proof.
  induction a as [|x a IH]; destruct b as [|y b]; cbn; auto.
  rewrite (Z.compare_antisym (byte_of x) (byte_of y)). destruct (byte_of x ?= byte_of y); cbn; auto.
Qed.
Lemma strcmp_trans : forall a b c, strcmp a b = Lt -> strcmp b c = Lt -> strcmp a c = Lt.
Proof.
  induction a as [|x a IH]; intros [|y b] [|z c]; cbn; try discriminate; auto.
  destruct (Z.compare_spec (byte_of x) (byte_of y)); destruct (Z.compare_spec (byte_of y) (byte_of z)); try discriminate; intros A B.
  - apply byte_of_inj in H, H0. subst. rewrite Z.compare_refl. eauto.
  - apply byte_of_inj in H. subst. apply Z.compare_lt_iff in H0. rewrite H0. reflexivity.
  - apply byte_of_inj in H0. subst. apply Z.compare_lt_iff in H. rewrite H. reflexivity.
  - assert (K : byte_of x < byte_of z) by lia. apply Z.compare_lt_iff in K. rewrite K. reflexivity.
Qed.
Lemma strcmp_ne : forall a b, strcmp a b <> Eq -> a <> b.
Proof. intros a b H ->. apply H. apply strcmp_refl. Qed.

(** ** Dictionaries *)
Definition ordered {A} (d : dict A) : Prop := StronglySorted (fun a b => strcmp (fst a) (fst b) = Lt) d.
Lemma eqb_sym : forall a b : string, String.eqb a b = String.eqb b a.
Proof. intros. destruct (String.eqb_spec a b), (String.eqb_spec b a); congruence. Qed.
Lemma set_in : forall A (d : dict A) k v x, In x (set d k v) -> x = (k, v) \/ In x d.
Proof.
  induction d as [|[j w] d IH]; cbn; intros k v x H.
  - destruct H as [<-|[]]; auto.
  - destruct (strcmp k j); cbn in H.
    + destruct H as [<-|H]; auto.
    + destruct H as [<-|H]; auto.
    + destruct H as [<-|H]; auto. destruct (IH _ _ _ H); auto.
Qed.
Lemma set_ordered : forall A (d : dict A) k v, ordered d -> ordered (set d k v).
Proof.
  induction d as [|[j w] d IH]; cbn; intros k v O.
  - repeat constructor.
  - inversion O as [|? ? O' F]; subst. destruct (strcmp k j) eqn:C.
    + apply strcmp_eq in C. subst. constructor; auto.
    + constructor; auto. constructor; cbn; auto. apply Forall_forall. intros x X.
      rewrite Forall_forall in F. eapply strcmp_trans; [exact C|]. apply (F _ X).
    + constructor; [apply IH; auto|]. apply Forall_forall. intros x X. destruct (set_in _ _ _ _ _ X) as [->|I].
      * cbn. rewrite strcmp_opp, C. reflexivity.
      * rewrite Forall_forall in F. apply F, I.
Qed.
Lemma get_lt : forall A (d : dict A) k, Forall (fun b => strcmp k (fst b) = Lt) d -> get d k = None.
Proof.
  induction d as [|[j w] d IH]; cbn; intros k F; auto. inversion F; subst. cbn in *.
  destruct (String.eqb_spec k j) as [->|]; [rewrite strcmp_refl in *; discriminate|auto].
Qed.
Lemma get_set : forall A (d : dict A) k v j, ordered d -> get (set d k v) j = if String.eqb j k then Some v else get d j.
Proof.
  induction d as [|[i w] d IH]; cbn; intros k v j O.
  - destruct (String.eqb j k); auto.
  - inversion O as [|? ? O' F]; subst. destruct (strcmp k i) eqn:C; cbn.
    + apply strcmp_eq in C. subst. destruct (String.eqb j i); auto.
    + destruct (String.eqb_spec j k); auto.
    + rewrite IH by auto. destruct (String.eqb_spec j i) as [->|]; auto.
      destruct (String.eqb_spec i k) as [->|]; auto. rewrite strcmp_refl in C. discriminate.
Qed.
Lemma get_in : forall A (d : dict A) k v, ordered d -> (get d k = Some v <-> In (k, v) d).
Proof.
  induction d as [|[i w] d IH]; cbn; intros k v O; [split; [discriminate|intros []]|].
  inversion O as [|? ? O' F]; subst. destruct (String.eqb_spec k i) as [->|N].
  - split; [intros [= ->]; auto|]. intros [[= ->]|I]; auto. rewrite Forall_forall in F. specialize (F _ I). cbn in F. rewrite strcmp_refl in F. discriminate.
  - rewrite IH by auto. split; auto. intros [[= -> ->]|I]; auto. congruence.
Qed.
Lemma set_perm : forall A (d : dict A) k v, get d k = None -> Permutation (set d k v) ((k, v) :: d).
Proof.
  induction d as [|[i w] d IH]; cbn; intros k v G; auto. destruct (String.eqb_spec k i) as [->|N]; [discriminate|].
  destruct (strcmp k i) eqn:C; auto.
  - apply strcmp_eq in C. congruence.
  - rewrite (IH _ _ G). apply perm_swap.
Qed.

(** ** Text *)
Lemma substring_app : forall n s t, String.length s = n -> String.substring 0 n (s ++ t) = s.
Proof.
  induction n; intros s t L; destruct s; cbn in *; try discriminate; auto. destruct t; auto. f_equal. apply IHn. lia.
Qed.
Lemma app_length_s : forall s t, String.length (s ++ t) = (String.length s + String.length t)%nat.
Proof. induction s; cbn; intros; auto. Qed.
Lemma literal_json : forall s, literal (to_json s) = s.
Proof.
  intros s. unfold literal, to_json, quote. cbn [String.append]. cbn [String.length]. rewrite app_length_s. cbn [String.length].
  replace (S (String.length s + 1) - 2)%nat with (String.length s) by lia. cbn [String.substring]. apply substring_app. reflexivity.
Qed.
Lemma to_json_inj : forall a b, to_json a = to_json b -> a = b.
Proof. intros a b H. rewrite <- (literal_json a), <- (literal_json b), H. reflexivity. Qed.
Lemma ident_byte : forall c, ident_char c = true -> 34 < byte_of c.
Proof.
  intros c H. unfold ident_char in H. unfold byte_of.
  assert (34 < N_of_ascii c)%N; [|lia].
  repeat (apply orb_true_iff in H; destruct H as [H|H]); try (apply andb_true_iff in H; destruct H as [H _]); try apply N.leb_le in H; try apply N.eqb_eq in H; lia.
Qed.
Lemma json_order : forall a b, ident a -> ident b -> strcmp (to_json a) (to_json b) = Lt -> strcmp a b = Lt.
Proof.
  intros a b A B H. unfold to_json, quote in H. cbn [String.append strcmp] in H. rewrite Z.compare_refl in H.
  revert b A B H. induction a as [|x a IH]; intros [|y b] A B H; cbn in *; auto.
  - unfold ident in A. cbn in A. apply andb_true_iff in A. destruct A as [A _]. apply ident_byte in A.
    destruct (Z.compare_spec (byte_of x) 34) as [E|E|E]; [lia|lia|discriminate].
  - unfold ident in A, B. cbn in A, B. apply andb_true_iff in A, B. destruct (byte_of x ?= byte_of y); auto. apply IH; auto; [apply A|apply B].
Qed.
Lemma escape_clean : forall s, clean_path s -> escape_path s = s.
Proof.
  unfold clean_path. induction s as [|c s IH]; cbn; intros H; auto. apply andb_true_iff in H. destruct H as [A B].
  apply andb_true_iff in A. destruct A as [A _]. apply negb_true_iff in A. rewrite A. f_equal. auto.
Qed.

(** ** Sorted databases *)
Lemma ordered_sorted : forall A (d : dict A), ordered d -> EntrySpec.sorted d.
Proof.
  intros A d O. induction O as [|x d O IH F]; intros i j a b L I J.
  - destruct i; discriminate.
  - destruct j as [|j]; [lia|]. cbn in J. destruct i as [|i]; cbn in I.
    + injection I as <-. rewrite Forall_forall in F. apply strcmp_lt, F. eapply nth_error_In, J.
    + eapply IH; [|exact I|exact J]. lia.
Qed.
Lemma ordered_map : forall A B (g : string -> string) (h : string -> A -> B) (d : dict A),
  (forall k v j w, In (k, v) d -> In (j, w) d -> strcmp k j = Lt -> strcmp (g k) (g j) = Lt) ->
  ordered d -> ordered (map (fun '(k, v) => (g k, h k v)) d).
Proof.
  intros A B g h d. induction d as [|[k v] d IH]; cbn; intros M O; [constructor|].
  inversion O as [|? ? O' F]; subst. constructor; [apply IH; auto; intros; eapply M; eauto|].
  apply Forall_forall. intros x X. apply in_map_iff in X. destruct X as [[j w] [<- I]]. cbn. rewrite Forall_forall in F.
  eapply M; [left; reflexivity|right; exact I|apply (F _ I)].
Qed.

(** ** The entry database *)
Definition get3 (edb : database) (f l n : string) : list string :=
  match get edb f with
  | Some a => match get a l with Some b => match get b n with Some x => x | None => [] end | None => [] end
  | None => []
  end.
Definition wf3 (d : dict (list string)) : Prop :=
  ordered d /\ forall n x, In (n, x) d -> x <> [] /\ exists s, n = to_json s /\ ident s.
Definition wf2 (d : dict (dict (list string))) : Prop :=
  ordered d /\ forall l x, In (l, x) d -> wf3 x /\ exists s, l = to_json s /\ ident s.
Definition wf1 (d : database) : Prop := ordered d /\ forall f x, In (f, x) d -> wf2 x /\ clean_path f.
Lemma wf3_set : forall d n x, wf3 d -> x <> [] -> ident n -> wf3 (set d (to_json n) x).
Proof. intros d n x [O W] X I. split; [apply set_ordered; auto|]. intros k y K. apply set_in in K. destruct K as [[= -> ->]|K]; eauto. Qed.
Lemma wf2_set : forall d l x, wf2 d -> wf3 x -> ident l -> wf2 (set d (to_json l) x).
Proof. intros d n x [O W] X I. split; [apply set_ordered; auto|]. intros k y K. apply set_in in K. destruct K as [[= -> ->]|K]; eauto. Qed.
Lemma wf1_set : forall d f x, wf1 d -> wf2 x -> clean_path f -> wf1 (set d f x).
Proof. intros d n x [O W] X I. split; [apply set_ordered; auto|]. intros k y K. apply set_in in K. destruct K as [[= -> ->]|K]; eauto. Qed.
Lemma wf3_one : forall n (x : string), ident n -> wf3 [(to_json n, [x])].
Proof. intros. split; [repeat constructor|]. intros k y [[= <- <-]|[]]. split; eauto. discriminate. Qed.
Lemma wf2_one : forall l x, wf3 x -> ident l -> wf2 [(to_json l, x)].
Proof. intros. split; [repeat constructor|]. intros k y [[= <- <-]|[]]. eauto. Qed.
Lemma wf1_in : forall d f x, wf1 d -> get d f = Some x -> wf2 x.
Proof. intros d f x [O W] G. apply get_in in G; auto. apply W in G. tauto. Qed.
Lemma wf2_in : forall d f x, wf2 d -> get d f = Some x -> wf3 x.
Proof. intros d f x [O W] G. apply get_in in G; auto. apply W in G. tauto. Qed.
Lemma app_one_ne : forall A (l : list A) x, l ++ [x] <> [].
Proof. intros A [|] ?; discriminate. Qed.

Lemma add_entry_wf : forall f l n id edb, wf1 edb -> clean_path f -> ident l -> ident n -> wf1 (add_entry f (to_json l) edb (id, to_json n)).
Proof.
  intros f l n id edb W F L N. unfold add_entry. destruct (get edb f) as [a|] eqn:A.
  - pose proof (wf1_in _ _ _ W A) as W2. destruct (get a (to_json l)) as [b|] eqn:B.
    + pose proof (wf2_in _ _ _ W2 B) as W3. destruct (get b (to_json n)); apply wf1_set; auto; apply wf2_set; auto; apply wf3_set; auto; [apply app_one_ne|discriminate].
    + apply wf1_set; auto. apply wf2_set; auto. apply wf3_one; auto.
  - apply wf1_set; auto. apply wf2_one; auto. apply wf3_one; auto.
Qed.
Lemma add_entry_get : forall f l n id edb f' l' n', wf1 edb ->
  get3 (add_entry f l edb (id, n)) f' l' n' =
  get3 edb f' l' n' ++ (if (String.eqb f' f && String.eqb l' l && String.eqb n' n)%bool then [id] else []).
Proof.
  intros f l n id edb f' l' n' W. unfold add_entry.
  destruct (get edb f) as [a|] eqn:A.
  - pose proof (wf1_in _ _ _ W A) as W2. destruct (get a l) as [b|] eqn:B.
    + pose proof (wf2_in _ _ _ W2 B) as W3. destruct (get b n) as [x|] eqn:C; unfold get3; rewrite get_set by apply W;
        (destruct (String.eqb_spec f' f) as [->|]; [|cbn; rewrite app_nil_r; reflexivity]); rewrite A, get_set by apply W2;
        (destruct (String.eqb_spec l' l) as [->|]; [|cbn; rewrite app_nil_r; reflexivity]); rewrite B, get_set by apply W3;
        (destruct (String.eqb_spec n' n) as [->|]; [|cbn; rewrite app_nil_r; reflexivity]); rewrite C; reflexivity.
    + unfold get3. rewrite get_set by apply W.
      destruct (String.eqb_spec f' f) as [->|]; [|cbn; rewrite app_nil_r; reflexivity]. rewrite A, get_set by apply W2.
      destruct (String.eqb_spec l' l) as [->|]; [|cbn; rewrite app_nil_r; reflexivity]. rewrite B. cbn.
      destruct (String.eqb n' n); reflexivity.
  - unfold get3. rewrite get_set by apply W.
    destruct (String.eqb_spec f' f) as [->|]; [|cbn; rewrite app_nil_r; reflexivity]. rewrite A. cbn.
    destruct (String.eqb l' l); cbn; [|reflexivity]. destruct (String.eqb n' n); reflexivity.
Qed.
Lemma add_entries : forall f l vars edb, wf1 edb -> clean_path f -> ident l ->
  (forall id n, In (id, n) vars -> exists s, n = to_json s /\ ident s) ->
  let edb' := fold_left (add_entry f (to_json l)) vars edb in
  wf1 edb' /\ forall f' l' n', get3 edb' f' l' n' =
    get3 edb f' l' n' ++ (if (String.eqb f' f && String.eqb l' (to_json l))%bool then map fst (filter (fun '(_, n) => String.eqb n' n) vars) else []).
Proof.
  intros f l vars. induction vars as [|[id n] vars IH]; intros edb W F L V; cbn [fold_left].
  - split; auto. intros. destruct (_ && _)%bool; cbn; rewrite app_nil_r; reflexivity.
  - destruct (V id n (or_introl eq_refl)) as [s [-> I]].
    assert (W0 : wf1 (add_entry f (to_json l) edb (id, to_json s))) by (apply add_entry_wf; auto).
    destruct (IH _ W0 F L (fun id n H => V id n (or_intror H))) as [W' G].
    split; auto. intros. rewrite G, add_entry_get by auto. rewrite <- app_assoc. f_equal.
    cbn [filter]. destruct (String.eqb f' f); cbn [andb]; auto. destruct (String.eqb l' (to_json l)); cbn [andb]; auto.
    destruct (String.eqb n' (to_json s)); reflexivity.
Qed.

(** ** The siblings of a marker *)
Definition sib (p : string * Z) (i : item) : bool :=
  (object i && same_place p (place i) && match i_name i with Some _ => true | None => false end)%bool.
Definition entry_of (i : item) : string * string := (i_id i, match i_name i with Some n => to_json n | None => "" end).
Lemma add_sibling_eq : forall p vars i, add_sibling p vars i =
  if sib p i then if has vars (i_id i) then vars else set vars (fst (entry_of i)) (snd (entry_of i)) else vars.
Proof.
  intros p vars [k id f l n s]. unfold add_sibling, sib, object, entry_of. cbn [i_kind i_id i_name fst snd].
  destruct k; cbn [andb]; try reflexivity; destruct (same_place _ _); cbn [andb]; try reflexivity; destruct n; cbn; reflexivity.
Qed.
Lemma siblings_perm : forall p h vars, NoDup (map fst vars ++ map i_id (filter object h)) ->
  Permutation (fold_left (add_sibling p) h vars) (vars ++ map entry_of (filter (sib p) h)).
Proof.
  intros p h. induction h as [|i h IH]; intros vars N; cbn [fold_left].
  - cbn. rewrite app_nil_r. reflexivity.
  - rewrite add_sibling_eq. cbn [filter] in *. destruct (sib p i) eqn:S.
    + assert (O : object i = true) by (unfold sib in S; apply andb_true_iff in S; destruct S as [S _]; apply andb_true_iff in S; apply S).
      rewrite O in N. cbn [map] in N.
      assert (G : get vars (i_id i) = None).
      { destruct (get vars (i_id i)) as [v|] eqn:G; auto. exfalso. apply NoDup_remove_2 in N. apply N. apply in_or_app. left.
        clear -G. induction vars as [|[j w] vars IH]; cbn in *; [discriminate|]. destruct (String.eqb_spec (i_id i) j); [left; auto|right; auto]. }
      unfold has. rewrite G. change (fst (entry_of i)) with (i_id i).
      pose proof (set_perm _ vars (i_id i) (snd (entry_of i)) G) as P. rewrite IH.
      * rewrite P. cbn [map app]. change (i_id i, snd (entry_of i)) with (entry_of i). apply Permutation_middle.
      * eapply Permutation_NoDup; [|exact N].
        transitivity (i_id i :: map fst vars ++ map i_id (filter object h)); [symmetry; apply Permutation_middle|].
        change (Permutation ((i_id i :: map fst vars) ++ map i_id (filter object h)) (map fst (set vars (i_id i) (snd (entry_of i))) ++ map i_id (filter object h))).
        apply Permutation_app_tail. symmetry. apply (Permutation_map fst P).
    + apply IH. destruct (object i); auto. cbn [map] in N. apply NoDup_remove_1 in N. exact N.
Qed.
