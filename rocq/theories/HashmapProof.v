(** Proofs about the hash map model. *)
From Coq Require Import ZArith List Bool Lia Permutation ZifyBool.
Import ListNotations.
From Verif Require Import HashmapModel HashmapSpec.
Open Scope Z_scope.

(* ------------------------------------------------------------------ *)
(** * Lists *)

Lemma upd_length : forall {A} (f : A -> A) l i, length (upd i f l) = length l.
Proof. induction l as [|x r IH]; intros [|i]; cbn; auto. Qed.

Lemma upd_nth_same : forall {A} (f : A -> A) d l i, (i < length l)%nat ->
  nth i (upd i f l) d = f (nth i l d).
Proof. induction l as [|x r IH]; intros [|i] H; cbn in *; try lia; auto. apply IH; lia. Qed.

Lemma upd_nth_other : forall {A} (f : A -> A) d l i j, i <> j ->
  nth j (upd i f l) d = nth j l d.
Proof.
  induction l as [|x r IH]; intros [|i] [|j] H; cbn; auto; try congruence.
Qed.

Lemma upd_split : forall {A} (f : A -> A) d l i, (i < length l)%nat ->
  exists a b, l = a ++ nth i l d :: b /\ upd i f l = a ++ f (nth i l d) :: b /\ length a = i.
Proof.
  induction l as [|x r IH]; intros [|i] H; cbn in *; try lia.
  - exists [], r; auto.
  - destruct (IH i) as (a & b & E & E2 & L); [lia|].
    exists (x :: a), b. cbn. rewrite <- E, E2. auto.
Qed.

Lemma in_concat_nth : forall {A} (l : list (list A)) x,
  In x (concat l) <-> exists i, (i < length l)%nat /\ In x (nth i l []).
Proof.
  intros A l x. rewrite in_concat. split.
  - intros (c & Hc & Hx). destruct (In_nth l c [] Hc) as (i & Hi & E). exists i. rewrite E. auto.
  - intros (i & Hi & Hx). exists (nth i l []). split; auto. apply nth_In; auto.
Qed.

Lemma concat_upd_perm : forall {A} (f : list A -> list A) l i, (i < length l)%nat ->
  exists rest, Permutation (concat l) (nth i l [] ++ rest) /\
               Permutation (concat (upd i f l)) (f (nth i l []) ++ rest).
Proof.
  intros A f l i H. destruct (upd_split f [] l i H) as (a & b & E & E2 & L).
  exists (concat a ++ concat b). split.
  - rewrite E at 1. rewrite concat_app. cbn. apply Permutation_app_swap_app.
  - rewrite E2. rewrite concat_app. cbn. apply Permutation_app_swap_app.
Qed.

Lemma FOP_app : forall {A} (R : A -> A -> Prop) l1 l2,
  ForallOrdPairs R (l1 ++ l2) <->
  ForallOrdPairs R l1 /\ ForallOrdPairs R l2 /\ (forall x y, In x l1 -> In y l2 -> R x y).
Proof.
  induction l1 as [|x r IH]; intros l2; cbn.
  - split; [intros H; repeat split; auto; [constructor|tauto] | tauto].
  - split.
    + intros H. inversion H as [|? ? F P]; subst. apply IH in P. destruct P as (P1 & P2 & P3).
      rewrite Forall_app in F. destruct F as [F1 F2]. rewrite Forall_forall in F2.
      split; [constructor; auto|]. split; auto. intros y z [<-|Hy] Hz; auto.
    + intros (H1 & H2 & H3). inversion H1 as [|? ? F P]; subst. constructor.
      * rewrite Forall_app. split; auto. rewrite Forall_forall. intros z Hz. apply H3; auto.
      * apply IH. repeat split; auto.
Qed.

Lemma FOP_perm : forall {A} (R : A -> A -> Prop) (Rsym : forall x y, R x y -> R y x) l l',
  Permutation l l' -> ForallOrdPairs R l -> ForallOrdPairs R l'.
Proof.
  intros A R Rsym l l' P. induction P as [|x l l' P IH|x y l|l l' l'' P1 IH1 P2 IH2]; intros F; auto.
  - inversion F; subst. constructor; auto. eapply Permutation_Forall; eauto.
  - inversion F as [|? ? F1 F2]; subst. inversion F2 as [|? ? F3 F4]; subst.
    inversion F1; subst. constructor; [constructor; auto|constructor; auto].
Qed.

Lemma FOP_map : forall {A B} (f : A -> B) (R : B -> B -> Prop) l,
  ForallOrdPairs (fun x y => R (f x) (f y)) l -> ForallOrdPairs R (map f l).
Proof.
  induction 1 as [|x l F P IH]; cbn; constructor; auto.
  rewrite Forall_forall in *. intros y Hy. apply in_map_iff in Hy. destruct Hy as (z & <- & Hz). auto.
Qed.

(* ------------------------------------------------------------------ *)
(** * Indices *)

Lemma pow2_bound : forall j, 0 <= j -> 2 ^ j * 8 < 9223372036854775808 -> j < 60.
Proof.
  intros j Hj H. destruct (Z_lt_ge_dec j 60); auto.
  assert (2 ^ 60 <= 2 ^ j) by (apply Z.pow_le_mono_r; lia). change (2 ^ 60) with 1152921504606846976 in *. lia.
Qed.

Lemma calculateIndex_range : forall j h, 0 <= j -> 0 <= calculateIndex (2 ^ j) h < 2 ^ j.
Proof.
  intros j h Hj. unfold calculateIndex. replace (2 ^ j - 1) with (Z.ones j) by (rewrite Z.ones_equiv; lia).
  rewrite Z.land_ones by lia. apply Z.mod_pos_bound. apply Z.pow_pos_nonneg; lia.
Qed.

Opaque calculateIndex.

Section Client.
Variable hash : Z -> Z.
Variable equals : Z -> Z -> bool.
Hypothesis OK : client_ok hash equals.

Let Erefl := eq_refl_ok _ _ OK.
Let Esym := eq_sym_ok _ _ OK.
Let Etrans := eq_trans_ok _ _ OK.
Let Ehash := eq_hash_ok _ _ OK.

Lemma Esymb : forall a b, equals a b = equals b a.
Proof.
  intros a b. destruct (equals a b) eqn:E1, (equals b a) eqn:E2; auto;
  [apply Esym in E1 | apply Esym in E2]; congruence.
Qed.

Lemma Eleft : forall a b c, equals a b = true -> equals a c = equals b c.
Proof.
  intros a b c H. destruct (equals a c) eqn:E1, (equals b c) eqn:E2; auto.
  - rewrite (Etrans b a c) in E2; auto.
  - rewrite (Etrans a b c) in E1; auto.
Qed.

Lemma hashKey_equals : forall a b, equals a b = true -> hashKey hash a = hashKey hash b.
Proof. intros a b H. unfold hashKey. rewrite (Ehash a b H). reflexivity. Qed.

Opaque hashKey.

Definition neqE (e1 e2 : hentry) : Prop := equals (hk e1) (hk e2) = false.
Lemma neqE_sym : forall x y, neqE x y -> neqE y x.
Proof. unfold neqE. intros x y H. rewrite Esymb; auto. Qed.

Definition idx (bc : Z) (e : hentry) : nat := Z.to_nat (calculateIndex bc (hh e)).

Record Inv (m : hmap) : Prop := {
  I_len : length (buckets m) = Z.to_nat (bucketCount m);
  I_pow : exists j, 0 <= j /\ bucketCount m = 2 ^ j;
  I_cap : bucketCount m * 8 < 9223372036854775808;
  I_ent : forall i e, In e (nth i (buckets m) []) -> hh e = hashKey hash (hk e) /\ idx (bucketCount m) e = i;
  I_neq : ForallOrdPairs neqE (concat (buckets m));
  I_size : hsize m = Z.of_nat (length (concat (buckets m))) }.

Lemma idx_lt : forall m h, Inv m -> (Z.to_nat (calculateIndex (bucketCount m) h) < length (buckets m))%nat.
Proof.
  intros m h I. rewrite (I_len m I). destruct (I_pow m I) as (j & Hj & E). rewrite E.
  pose proof (calculateIndex_range j h Hj). lia.
Qed.

(** The search loop finds the first entry with an equal key. *)
Lemma equalKeys_ok : forall e k, hh e = hashKey hash (hk e) ->
  equalKeys equals (hk e) (hh e) k (hashKey hash k) = equals (hk e) k.
Proof.
  intros e k H. unfold equalKeys. destruct (hk e =? k) eqn:E1.
  - assert (hk e = k) by lia. subst k. rewrite Erefl. reflexivity.
  - destruct (hh e =? hashKey hash k) eqn:E2; cbn; auto.
    destruct (equals (hk e) k) eqn:E3; auto. apply hashKey_equals in E3. lia.
Qed.

Definition look (m : hmap) (k : Z) : option hentry :=
  chain_find equals (chain_at m (hashKey hash k)) k (hashKey hash k).

Lemma chain_find_some : forall c k e,
  (forall x, In x c -> hh x = hashKey hash (hk x)) ->
  chain_find equals c k (hashKey hash k) = Some e -> In e c /\ equals (hk e) k = true.
Proof.
  induction c as [|x r IH]; cbn; intros k e H F; [discriminate|].
  rewrite equalKeys_ok in F by auto. destruct (equals (hk x) k) eqn:E.
  - inversion F; subst; auto.
  - apply IH in F; auto. destruct F; auto.
Qed.

Lemma chain_find_none : forall c k,
  (forall x, In x c -> hh x = hashKey hash (hk x)) ->
  chain_find equals c k (hashKey hash k) = None -> forall x, In x c -> equals (hk x) k = false.
Proof.
  induction c as [|x r IH]; cbn; intros k H F y Hy; [tauto|].
  rewrite equalKeys_ok in F by auto. destruct (equals (hk x) k) eqn:E; [discriminate|].
  destruct Hy as [<-|Hy]; [exact E|]. apply (IH k); auto.
Qed.

Lemma in_all_chain : forall m e k, Inv m -> In e (concat (buckets m)) -> equals (hk e) k = true ->
  In e (chain_at m (hashKey hash k)).
Proof.
  intros m e k I Hin He. apply in_concat_nth in Hin. destruct Hin as (i & Hi & Hin).
  destruct (I_ent m I i e Hin) as [Hh Hx]. unfold chain_at. unfold idx in Hx.
  rewrite Hh, (hashKey_equals _ _ He) in Hx. rewrite Hx. auto.
Qed.

Lemma chain_ent : forall m h x, Inv m -> In x (chain_at m h) -> hh x = hashKey hash (hk x).
Proof. intros m h x I H. exact (proj1 (I_ent m I _ x H)). Qed.

Lemma chain_in_all : forall m h x, Inv m -> In x (chain_at m h) -> In x (concat (buckets m)).
Proof.
  intros m h x I H. apply in_concat_nth. eexists. split; [|exact H]. apply idx_lt; auto.
Qed.

Lemma neqE_unique : forall l x y k, ForallOrdPairs neqE l -> In x l -> In y l ->
  equals (hk x) k = true -> equals (hk y) k = true -> x = y.
Proof.
  induction 1 as [|z l F P IH]; cbn; intros Hx Hy Ex Ey; [tauto|].
  rewrite Forall_forall in F.
  assert (Q : forall a b, equals (hk a) k = true -> equals (hk b) k = true -> neqE a b -> False).
  { unfold neqE. intros a b Ha Hb N. rewrite (Etrans (hk a) k (hk b)) in N; auto. discriminate. }
  destruct Hx as [<-|Hx], Hy as [<-|Hy]; auto.
  - exfalso. apply (Q z y); auto.
  - exfalso. apply (Q z x); auto.
Qed.

Lemma look_spec : forall m k e, Inv m ->
  (look m k = Some e <-> In e (concat (buckets m)) /\ equals (hk e) k = true).
Proof.
  intros m k e I. unfold look. split.
  - intros H. apply chain_find_some in H; [|intros; eapply chain_ent; eauto].
    destruct H. split; auto. eapply chain_in_all; eauto.
  - intros [Hin He]. destruct (chain_find equals (chain_at m (hashKey hash k)) k (hashKey hash k)) as [e'|] eqn:F.
    + apply chain_find_some in F; [|intros; eapply chain_ent; eauto]. destruct F as [F1 F2].
      f_equal. apply (neqE_unique (concat (buckets m)) e' e k); auto. apply I. eapply chain_in_all; eauto.
    + pose proof (chain_find_none _ _ (fun x => chain_ent m _ x I) F e (in_all_chain m e k I Hin He)). congruence.
Qed.

Lemma look_none : forall m k, Inv m ->
  (look m k = None <-> forall e, In e (concat (buckets m)) -> equals (hk e) k = false).
Proof.
  intros m k I. split.
  - intros H e He. destruct (equals (hk e) k) eqn:E; auto.
    assert (look m k = Some e) by (apply look_spec; auto). congruence.
  - intros H. destruct (look m k) as [e|] eqn:E; auto. apply look_spec in E; auto.
    destruct E as [E1 E2]. rewrite (H e E1) in E2. discriminate.
Qed.

(* ------------------------------------------------------------------ *)
(** * Creation *)

Lemma create_loop_pow : forall fuel j mn, 0 <= j -> j + Z.of_nat fuel <= 64 ->
  0 <= mn < 2 ^ 63 -> 2 ^ j <= 2 ^ 63 ->
  exists j', j <= j' /\ create_loop fuel (2 ^ j) mn = 2 ^ j' /\ j' <= 63 /\
    (mn < 2 ^ j' \/ j' = j + Z.of_nat fuel) /\ (j' = j \/ 2 ^ (j' - 1) <= mn).
Proof.
  induction fuel as [|f IH]; intros j mn Hj Hf Hmn Hb.
  - exists j. cbn [create_loop]. repeat split; try lia. apply Z.pow_le_mono_r_iff in Hb; lia.
  - cbn [create_loop]. destruct (2 ^ j <=? mn) eqn:E.
    + assert (Hlt : j < 63). { apply (Z.pow_lt_mono_r_iff 2); lia. }
      assert (Hsh : to_u64 (Z.shiftl (2 ^ j) 1) = 2 ^ (j + 1)).
      { unfold to_u64. rewrite Z.shiftl_mul_pow2 by lia. rewrite <- Z.pow_add_r by lia.
        apply Z.mod_small. split; [apply Z.pow_nonneg; lia|].
        change 18446744073709551616 with (2 ^ 64). apply Z.pow_lt_mono_r; lia. }
      rewrite Hsh. destruct (IH (j + 1) mn) as (j' & H1 & H2 & H3 & H4 & H5); try lia.
      { apply Z.pow_le_mono_r; lia. }
      exists j'. repeat split; try lia. right. destruct H5 as [->|H5]; [|exact H5].
      replace (j + 1 - 1) with j by lia. lia.
    + exists j. repeat split; try lia. all: try (apply Z.pow_le_mono_r_iff in Hb; lia).
Qed.

Lemma create_bc : forall c, exists j, 0 <= j <= 63 /\
  create_loop 64 1 (to_u64 (c * 4) / 3) = 2 ^ j /\ to_u64 (c * 4) / 3 < 2 ^ j /\
  (j = 0 \/ 2 ^ (j - 1) <= to_u64 (c * 4) / 3).
Proof.
  intros c. set (mn := to_u64 (c * 4) / 3).
  assert (Hmn : 0 <= mn < 2 ^ 63).
  { unfold mn, to_u64. pose proof (Z.mod_pos_bound (c * 4) 18446744073709551616 ltac:(lia)).
    split; [apply Z.div_pos; lia|]. apply Z.div_lt_upper_bound; lia. }
  change 1 with (2 ^ 0) at 1.
  destruct (create_loop_pow 64 0 mn) as (j & H1 & H2 & H3 & H4 & H5); try lia.
  exists j. repeat split; try lia.
Qed.

Lemma concat_repeat_nil : forall {A} n, concat (repeat (@nil A) n) = [].
Proof. induction n; cbn; auto. Qed.

Lemma nth_repeat_nil : forall {A} n i, nth i (repeat (@nil A) n) [] = [].
Proof. induction n; intros [|i]; cbn; auto. Qed.

Lemma create_inv : forall c a1 a2 m, hashmapCreate c a1 a2 = Some m ->
  Inv m /\ concat (buckets m) = [].
Proof.
  unfold hashmapCreate. intros c a1 a2 m H. destruct a1; [|discriminate].
  destruct (create_bc c) as (j & Hj & E & _). rewrite E in H.
  unfold calloc_ok in H. destruct (a2 && (2 ^ j * 8 <? 9223372036854775808)) eqn:C; [|discriminate].
  inversion H; subst m; clear H. apply andb_prop in C. destruct C as [_ C].
  cbn. rewrite concat_repeat_nil. split; auto. constructor; cbn [buckets bucketCount hsize].
  - apply repeat_length.
  - exists j; split; [lia|auto].
  - lia.
  - intros i e. rewrite nth_repeat_nil. cbn. tauto.
  - rewrite concat_repeat_nil. constructor.
  - rewrite concat_repeat_nil. reflexivity.
Qed.

(* ------------------------------------------------------------------ *)
(** * Growth *)

Record Moved (nbc : Z) (nb : list (list hentry)) (l : list hentry) : Prop := {
  M_len : length nb = Z.to_nat nbc;
  M_in : forall i e, In e (nth i nb []) -> In e l /\ idx nbc e = i;
  M_perm : Permutation (concat nb) l }.

Lemma move_entry_moved : forall j nb l e, 0 <= j -> Moved (2 ^ j) nb l ->
  Moved (2 ^ j) (move_entry (2 ^ j) nb e) (e :: l).
Proof.
  intros j nb l e Hj [Ml Mi Mp]. unfold move_entry.
  pose proof (calculateIndex_range j (hh e) Hj) as R.
  assert (Hlt : (Z.to_nat (calculateIndex (2 ^ j) (hh e)) < length nb)%nat) by lia.
  constructor.
  - rewrite upd_length. auto.
  - intros i x Hx. destruct (Nat.eq_dec (Z.to_nat (calculateIndex (2 ^ j) (hh e))) i) as [Ei|Ni].
    + subst i. rewrite upd_nth_same in Hx by auto. destruct Hx as [<-|Hx].
      * split; cbn; auto.
      * apply Mi in Hx. split; cbn; tauto.
    + rewrite upd_nth_other in Hx by auto. apply Mi in Hx. split; cbn; tauto.
  - destruct (concat_upd_perm (cons e) nb _ Hlt) as (rest & P1 & P2).
    rewrite P2. cbn. constructor. rewrite <- P1. auto.
Qed.

Lemma move_chain_moved : forall j c nb l, 0 <= j -> Moved (2 ^ j) nb l ->
  Moved (2 ^ j) (fold_left (move_entry (2 ^ j)) c nb) (rev c ++ l).
Proof.
  induction c as [|e r IH]; intros nb l Hj M; auto.
  cbn [fold_left rev]. rewrite <- app_assoc. cbn [app]. apply IH; auto. apply move_entry_moved; auto.
Qed.

Lemma moved_perm : forall nbc nb l l', Moved nbc nb l -> Permutation l l' -> Moved nbc nb l'.
Proof.
  intros nbc nb l l' [A B C] P. constructor; auto.
  - intros i e H. destruct (B i e H). split; auto. eapply Permutation_in; eauto.
  - rewrite C; auto.
Qed.

Lemma move_all_moved : forall j b nb l, 0 <= j -> Moved (2 ^ j) nb l ->
  Moved (2 ^ j) (fold_left (fun nb chain => fold_left (move_entry (2 ^ j)) chain nb) b nb)
        (concat b ++ l).
Proof.
  induction b as [|c r IH]; intros nb l Hj M; auto.
  cbn [fold_left concat]. eapply moved_perm.
  - apply IH; [auto|]. apply move_chain_moved; eauto.
  - rewrite app_assoc. apply Permutation_app_tail. rewrite Permutation_app_comm.
    apply Permutation_app_tail. symmetry. apply Permutation_rev.
Qed.

Lemma expand_perm : forall a m, Inv m ->
  Permutation (concat (buckets (expandIfNecessary a m))) (concat (buckets m)) /\
  Inv (expandIfNecessary a m) /\ hsize (expandIfNecessary a m) = hsize m.
Proof.
  intros a m I. unfold expandIfNecessary.
  destruct (bucketCount m * 3 / 4 <? hsize m); [|auto].
  destruct (I_pow m I) as (j & Hj & E). rewrite E.
  assert (Es : Z.shiftl (2 ^ j) 1 = 2 ^ (j + 1)).
  { rewrite Z.shiftl_mul_pow2 by lia. rewrite <- Z.pow_add_r by lia. reflexivity. }
  rewrite Es. unfold calloc_ok. destruct (a && (2 ^ (j + 1) * 8 <? 9223372036854775808)) eqn:C; [|auto].
  apply andb_prop in C. destruct C as [_ C].
  assert (M : Moved (2 ^ (j + 1)) (fold_left (fun nb chain => fold_left (move_entry (2 ^ (j + 1))) chain nb)
              (buckets m) (repeat [] (Z.to_nat (2 ^ (j + 1))))) (concat (buckets m))).
  { rewrite <- (app_nil_r (concat (buckets m))). apply move_all_moved; [lia|].
    constructor.
    - apply repeat_length.
    - intros i e. rewrite nth_repeat_nil. cbn; tauto.
    - rewrite concat_repeat_nil. constructor. }
  cbn [buckets hsize]. split; [apply M|]. split; [|reflexivity].
  constructor; cbn [buckets bucketCount hsize].
  - apply M.
  - exists (j + 1). split; [lia|auto].
  - lia.
  - intros i e He. destruct (M_in _ _ _ M i e He) as [H1 H2]. split; auto.
    apply in_concat_nth in H1. destruct H1 as (i' & _ & H1). apply (I_ent m I i' e H1).
  - eapply FOP_perm; [apply neqE_sym | symmetry; apply M | apply I].
  - rewrite (I_size m I). f_equal. symmetry. apply Permutation_length. apply M.
Qed.

(* ------------------------------------------------------------------ *)
(** * Updating one chain *)

Lemma with_chain_inv : forall m h f ds rest,
  Inv m ->
  let i := Z.to_nat (calculateIndex (bucketCount m) h) in
  (forall e, In e (f (chain_at m h)) -> hh e = hashKey hash (hk e) /\ idx (bucketCount m) e = i) ->
  Permutation (concat (upd i f (buckets m))) (f (chain_at m h) ++ rest) ->
  ForallOrdPairs neqE (f (chain_at m h) ++ rest) ->
  hsize m + ds = Z.of_nat (length (f (chain_at m h) ++ rest)) ->
  Inv (with_chain m h f ds).
Proof.
  intros m h f ds rest I i Hf P FO Hs. pose proof (idx_lt m h I) as Hi. fold i in Hi.
  constructor; unfold with_chain; fold i; cbn [buckets bucketCount hsize].
  - rewrite upd_length. apply I.
  - apply I.
  - apply I.
  - intros i' e He. destruct (Nat.eq_dec i i') as [<-|N].
    + rewrite upd_nth_same in He by auto. apply Hf; auto.
    + rewrite upd_nth_other in He by auto. apply (I_ent m I i' e He).
  - eapply FOP_perm; [apply neqE_sym | symmetry; apply P | auto].
  - rewrite Hs. f_equal. symmetry. apply Permutation_length; auto.
Qed.

(** Put on an absent key. *)
Lemma insert_ok : forall m k v, Inv m -> look m k = None ->
  let m' := with_chain m (hashKey hash k) (fun c => c ++ [HEntry k (hashKey hash k) v]) 1 in
  Inv m' /\ Permutation (concat (buckets m')) (HEntry k (hashKey hash k) v :: concat (buckets m)).
Proof.
  intros m k v I L m'. set (h := hashKey hash k) in *. set (ne := HEntry k h v) in *.
  pose proof (idx_lt m h I) as Hi.
  destruct (concat_upd_perm (fun c => c ++ [ne]) (buckets m) _ Hi) as (rest & P1 & P2).
  assert (P3 : Permutation ((chain_at m h ++ [ne]) ++ rest) (ne :: concat (buckets m))).
  { rewrite P1. fold (chain_at m h). rewrite <- app_assoc. cbn. symmetry. apply Permutation_middle. }
  assert (FO : ForallOrdPairs neqE (ne :: concat (buckets m))).
  { constructor; [|apply I]. rewrite Forall_forall. intros e He. unfold neqE.
    rewrite Esymb. cbn. apply (proj1 (look_none m k I) L e He). }
  split.
  - apply with_chain_inv with (rest := rest); auto.
    + intros e He. apply in_app_or in He. destruct He as [He|[<-|[]]].
      * apply (I_ent m I _ e He).
      * split; reflexivity.
    + eapply FOP_perm; [apply neqE_sym | symmetry; apply P3 | apply FO].
    + rewrite (Permutation_length P3). cbn [length]. rewrite (I_size m I). lia.
  - unfold m', with_chain. cbn [buckets]. refine (Permutation_trans P2 P3).
Qed.

Lemma chain_replace_split : forall c k v e,
  (forall x, In x c -> hh x = hashKey hash (hk x)) ->
  chain_find equals c k (hashKey hash k) = Some e ->
  exists a b, c = a ++ e :: b /\
    chain_replace equals c k (hashKey hash k) v = a ++ HEntry (hk e) (hh e) v :: b.
Proof.
  induction c as [|x r IH]; cbn; intros k v e H F; [discriminate|].
  destruct (equalKeys equals (hk x) (hh x) k (hashKey hash k)) eqn:E.
  - inversion F; subst. exists [], r. auto.
  - destruct (IH k v e) as (a & b & E1 & E2); auto. exists (x :: a), b. cbn. rewrite <- E1, E2. auto.
Qed.

Lemma chain_remove_split : forall c k e,
  (forall x, In x c -> hh x = hashKey hash (hk x)) ->
  chain_find equals c k (hashKey hash k) = Some e ->
  exists a b, c = a ++ e :: b /\ chain_remove equals c k (hashKey hash k) = a ++ b.
Proof.
  induction c as [|x r IH]; cbn; intros k e H F; [discriminate|].
  destruct (equalKeys equals (hk x) (hh x) k (hashKey hash k)) eqn:E.
  - inversion F; subst. exists [], r. auto.
  - destruct (IH k e) as (a & b & E1 & E2); auto. exists (x :: a), b. cbn. rewrite <- E1, E2. auto.
Qed.

Lemma FOP_swap : forall l1 e e' l2, hk e = hk e' ->
  ForallOrdPairs neqE (l1 ++ e :: l2) -> ForallOrdPairs neqE (l1 ++ e' :: l2).
Proof.
  intros l1 e e' l2 Hk H. rewrite FOP_app in *. destruct H as (H1 & H2 & H3).
  inversion H2 as [|? ? F P]; subst. repeat split; auto.
  - constructor; auto. unfold neqE in *. rewrite <- Hk. auto.
  - intros x y Hx [<-|Hy]; [|apply H3; cbn; auto]. unfold neqE in *. rewrite <- Hk. apply (H3 x e); cbn; auto.
Qed.

(** Put on a present key. *)
Lemma replace_ok : forall m k v e, Inv m -> look m k = Some e ->
  let m' := with_chain m (hashKey hash k) (fun c => chain_replace equals c k (hashKey hash k) v) 0 in
  Inv m' /\ exists rest, Permutation (concat (buckets m)) (e :: rest) /\
    Permutation (concat (buckets m')) (HEntry (hk e) (hh e) v :: rest).
Proof.
  intros m k v e I L m'. set (h := hashKey hash k) in *.
  pose proof (idx_lt m h I) as Hi.
  set (f := fun c => chain_replace equals c k h v).
  destruct (concat_upd_perm f (buckets m) _ Hi) as (rest & P1 & P2). fold (chain_at m h) in P1, P2.
  destruct (chain_replace_split (chain_at m h) k v e) as (a & b & E1 & E2); auto.
  { intros; eapply chain_ent; eauto. }
  fold h in E2. assert (E2f : f (chain_at m h) = a ++ HEntry (hk e) (hh e) v :: b) by exact E2.
  rewrite E2f in P2. rewrite E1 in P1.
  assert (He : In e (chain_at m h)) by (rewrite E1; apply in_or_app; cbn; auto).
  split.
  - apply with_chain_inv with (rest := rest); auto; fold h; cbv beta; rewrite ?E2.
    + intros x Hx. rewrite ?E2 in Hx. apply in_app_or in Hx. cbn in Hx. destruct Hx as [Hx|[<-|Hx]].
      * apply (I_ent m I). fold (chain_at m h). rewrite E1. apply in_or_app; auto.
      * unfold idx. cbn. apply (I_ent m I _ e He).
      * apply (I_ent m I). fold (chain_at m h). rewrite E1. apply in_or_app; cbn; auto.
    + exact P2.
    + rewrite <- app_assoc. cbn. apply FOP_swap with (e := e); auto.
      pose proof (FOP_perm neqE neqE_sym _ _ P1 (I_neq m I)) as Q. rewrite <- app_assoc in Q. exact Q.
    + rewrite (I_size m I), (Permutation_length P1), !app_length. cbn. lia.
  - exists (a ++ b ++ rest). split.
    + rewrite P1. rewrite <- app_assoc. cbn. symmetry. apply Permutation_middle.
    + unfold m', with_chain. cbn [buckets]. refine (Permutation_trans P2 _). rewrite <- app_assoc. cbn. symmetry. apply Permutation_middle.
Qed.

Lemma remove_ok : forall m k e, Inv m -> look m k = Some e ->
  let m' := with_chain m (hashKey hash k) (fun c => chain_remove equals c k (hashKey hash k)) (-1) in
  Inv m' /\ Permutation (concat (buckets m)) (e :: concat (buckets m')).
Proof.
  intros m k e I L m'. set (h := hashKey hash k) in *.
  pose proof (idx_lt m h I) as Hi.
  set (f := fun c => chain_remove equals c k h).
  destruct (concat_upd_perm f (buckets m) _ Hi) as (rest & P1 & P2). fold (chain_at m h) in P1, P2.
  destruct (chain_remove_split (chain_at m h) k e) as (a & b & E1 & E2); auto.
  { intros; eapply chain_ent; eauto. }
  fold h in E2. assert (E2f : f (chain_at m h) = a ++ b) by exact E2.
  rewrite E2f in P2. rewrite E1 in P1.
  assert (P3 : Permutation (concat (buckets m)) (e :: (a ++ b) ++ rest)).
  { rewrite P1. rewrite <- !app_assoc. cbn. symmetry. apply Permutation_middle. }
  split.
  - apply with_chain_inv with (rest := rest); auto; fold h; cbv beta; rewrite ?E2.
    + intros x Hx. rewrite ?E2 in Hx. apply (I_ent m I). fold (chain_at m h). rewrite E1. apply in_app_or in Hx. apply in_or_app; cbn; tauto.
    + exact P2.
    + pose proof (FOP_perm neqE neqE_sym _ _ P3 (I_neq m I)) as Q. inversion Q; auto.
    + rewrite (I_size m I), (Permutation_length P3). cbn [length]. lia.
  - unfold m', with_chain. cbn [buckets]. refine (Permutation_trans P3 _). constructor. symmetry. exact P2.
Qed.

(* ------------------------------------------------------------------ *)
(** * Refinement *)

Definition binding (e : hentry) : Z * Z := (hk e, hv e).

Record Rel (m : hmap) (a : amap) : Prop := {
  R_inv : Inv m;
  R_map : forall k, a k = option_map binding (look m k) }.

Lemma look_perm : forall m1 m2 k, Inv m1 -> Inv m2 ->
  Permutation (concat (buckets m1)) (concat (buckets m2)) -> look m1 k = look m2 k.
Proof.
  intros m1 m2 k I1 I2 P. destruct (look m2 k) as [e|] eqn:E.
  - apply look_spec; auto. apply look_spec in E; auto. destruct E. split; auto.
    eapply Permutation_in; [symmetry; eauto|auto].
  - apply look_none; auto. rewrite look_none in E by auto. intros e He. apply E.
    eapply Permutation_in; eauto.
Qed.

Lemma look_insert : forall m m' ne k0, Inv m -> Inv m' ->
  Permutation (concat (buckets m')) (ne :: concat (buckets m)) ->
  look m' k0 = if equals (hk ne) k0 then Some ne else look m k0.
Proof.
  intros m m' ne k0 I I' P. destruct (equals (hk ne) k0) eqn:E.
  - apply look_spec; auto. split; auto. eapply Permutation_in; [symmetry; eauto|cbn; auto].
  - destruct (look m k0) as [e|] eqn:E2.
    + apply look_spec in E2; auto. apply look_spec; auto. destruct E2. split; auto.
      eapply Permutation_in; [symmetry; eauto|cbn; auto].
    + apply look_none; auto. rewrite look_none in E2 by auto. intros e He.
      apply (Permutation_in _ P) in He. cbn in He. destruct He as [<-|He]; auto.
Qed.

Lemma enumerates_all : forall m a, Rel m a -> enumerates equals a (map binding (concat (buckets m))).
Proof.
  intros m a [I Rm]. split.
  - apply FOP_map. cbn. apply I.
  - intros k b. rewrite Rm. split.
    + destruct (look m k) as [e|] eqn:E; cbn; [|discriminate]. intros H; inversion H; subst b.
      apply look_spec in E; auto. destruct E. split; auto. apply in_map; auto.
    + intros [Hin He]. apply in_map_iff in Hin. destruct Hin as (e & <- & Hin). cbn in He.
      assert (L : look m k = Some e) by (apply look_spec; auto). rewrite L. reflexivity.
Qed.

Lemma aset_rel_new : forall m m' a k v, Rel m a -> Inv m' ->
  Permutation (concat (buckets m')) (HEntry k (hashKey hash k) v :: concat (buckets m)) ->
  Rel m' (aset equals a k (Some (k, v))).
Proof.
  intros m m' a k v [I Rm] I' P. constructor; auto. intros k0. unfold aset.
  rewrite (look_insert m m' _ k0 I I' P). cbn [hk]. destruct (equals k k0); cbn; auto.
Qed.

Lemma step_rel : forall m a o m' x, Rel m a -> step hash equals m o = (m', x) ->
  exists a', astep equals a o a' x /\ Rel m' a'.
Proof.
  intros m a o m' x R H. pose proof (R_inv _ _ R) as I. pose proof (R_map _ _ R) as Rm.
  destruct o as [k v a1 a2|k|k|k f a1 a2|k|]; cbn [step] in H.
  - (* put *)
    unfold hashmapPut in H. fold (look m k) in H. destruct (look m k) as [e|] eqn:L.
    + inversion H; subst m' x; clear H.
      destruct (replace_ok m k v e I L) as (I' & rest & P1 & P2).
      exists (aset equals a k (Some (hk e, v))). split.
      { apply A_put_old. rewrite Rm, L. reflexivity. }
      constructor; auto. intros k0. unfold aset.
      apply look_spec in L; auto. destruct L as [L1 L2].
      set (m' := with_chain _ _ _ _) in *.
      destruct (equals k k0) eqn:E.
      * assert (L' : look m' k0 = Some (HEntry (hk e) (hh e) v)).
        { apply look_spec; auto. split; [eapply Permutation_in; [symmetry; eauto|cbn; auto]|].
          cbn. apply (Etrans _ k); auto. }
        rewrite L'. reflexivity.
      * rewrite Rm. f_equal. symmetry. destruct (look m k0) as [e0|] eqn:L0.
        -- apply look_spec in L0; auto. destruct L0 as [L3 L4]. apply look_spec; auto. split; auto.
           apply (Permutation_in _ P1) in L3. cbn in L3. destruct L3 as [<-|L3].
           ++ rewrite (Eleft (hk e) k k0) in L4; auto. rewrite E in L4. discriminate L4.
           ++ eapply Permutation_in; [symmetry; eauto|cbn; auto].
        -- apply look_none; auto. rewrite look_none in L0 by auto. intros e0 He0.
           apply (Permutation_in _ P2) in He0. cbn in He0. destruct He0 as [<-|He0].
           ++ cbn. rewrite (Eleft (hk e) k k0); auto.
           ++ apply L0. eapply Permutation_in; [symmetry; eauto|cbn; auto].
    + destruct a1.
      * destruct (insert_ok m k v I L) as (I1 & P1).
        set (m1 := with_chain _ _ _ _) in *.
        destruct (expand_perm a2 m1 I1) as (P2 & I2 & _).
        inversion H; subst m' x. eexists. split.
        { apply A_put_new. rewrite Rm, L. reflexivity. }
        eapply aset_rel_new; eauto. rewrite P2. exact P1.
      * inversion H; subst m' x. exists a. split; auto. apply A_put_oom. rewrite Rm, L. reflexivity.
  - (* get *)
    inversion H; subst m' x. exists a. split; auto.
    assert (E : hashmapGet hash equals m k = value_or_null (a k)).
    { unfold hashmapGet. fold (look m k). rewrite Rm. destruct (look m k); reflexivity. }
    rewrite E. constructor.
  - inversion H; subst m' x. exists a. split; auto.
    assert (E : hashmapContainsKey hash equals m k = match a k with Some _ => true | None => false end).
    { unfold hashmapContainsKey. fold (look m k). rewrite Rm. destruct (look m k); reflexivity. }
    rewrite E. constructor.
  - unfold hashmapMemoize in H. fold (look m k) in H. destruct (look m k) as [e|] eqn:L.
    + inversion H; subst m' x. exists a. split; auto. eapply A_memo_old. rewrite Rm, L. reflexivity.
    + destruct a1.
      * destruct (insert_ok m k (f k) I L) as (I1 & P1).
        set (m1 := with_chain _ _ _ _) in *.
        destruct (expand_perm a2 m1 I1) as (P2 & I2 & _).
        inversion H; subst m' x. eexists. split.
        { apply A_memo_new. rewrite Rm, L. reflexivity. }
        eapply aset_rel_new; eauto. rewrite P2. exact P1.
      * inversion H; subst m' x. exists a. split; auto. apply A_memo_oom. rewrite Rm, L. reflexivity.
  - unfold hashmapRemove in H. fold (look m k) in H. destruct (look m k) as [e|] eqn:L.
    + inversion H; subst m' x; clear H. destruct (remove_ok m k e I L) as (I' & P).
      exists (aset equals a k None). split.
      { replace (hv e) with (value_or_null (a k)) by (rewrite Rm, L; reflexivity). constructor. }
      constructor; auto. set (m' := with_chain _ _ _ _) in *. intros k0. unfold aset.
      apply look_spec in L; auto. destruct L as [L1 L2].
      pose proof (FOP_perm neqE neqE_sym _ _ P (I_neq m I)) as Q.
      inversion Q as [|? ? F Q']; subst. rewrite Forall_forall in F.
      destruct (equals k k0) eqn:E.
      * assert (L' : look m' k0 = None).
        { apply look_none; auto. intros e0 He0. destruct (equals (hk e0) k0) eqn:E0; auto.
          specialize (F e0 He0). unfold neqE in F.
          rewrite (Etrans (hk e) k (hk e0)) in F; auto. apply (Etrans _ k0); auto. }
        rewrite L'. reflexivity.
      * rewrite Rm. f_equal. symmetry. destruct (look m k0) as [e0|] eqn:L0.
        -- apply look_spec in L0; auto. destruct L0 as [L3 L4]. apply look_spec; auto. split; auto.
           apply (Permutation_in _ P) in L3. cbn in L3. destruct L3 as [<-|L3]; auto.
           rewrite (Eleft (hk e) k k0) in L4; auto. rewrite E in L4. discriminate L4.
        -- apply look_none; auto. rewrite look_none in L0 by auto. intros e0 He0. apply L0.
           eapply Permutation_in; [symmetry; eauto|cbn; auto].
    + inversion H; subst m' x. exists (aset equals a k None). split.
      { replace (RRemove 0) with (RRemove (value_or_null (a k))) by (rewrite Rm, L; reflexivity). constructor. }
      constructor; auto. intros k0. unfold aset. destruct (equals k k0) eqn:E; auto.
      assert (L' : look m k0 = None).
      { apply look_none; auto. rewrite look_none in L by auto. intros e He.
        destruct (equals (hk e) k0) eqn:E2; auto. rewrite <- (L e He). symmetry. apply (Etrans _ k0); auto. }
      rewrite L'. reflexivity.
  - inversion H; subst m' x. exists a. split; auto.
    assert (E : hashmapSize m = Z.of_nat (length (map binding (concat (buckets m))))).
    { unfold hashmapSize. rewrite (I_size m I), map_length. reflexivity. }
    rewrite E. constructor. apply enumerates_all; auto.
Qed.

Lemma run_rel : forall ops m a, Rel m a ->
  exists a', arun equals a ops a' (snd (run hash equals m ops)) /\ Rel (fst (run hash equals m ops)) a'.
Proof.
  induction ops as [|o l IH]; intros m a R; cbn.
  - exists a. split; [constructor|auto].
  - destruct (step hash equals m o) as [m1 x] eqn:S.
    destruct (step_rel m a o m1 x R S) as (a1 & A & R1).
    destruct (IH m1 a1 R1) as (a2 & A2 & R2).
    destruct (run hash equals m1 l) as [m2 xs]. cbn in *.
    exists a2. split; auto. econstructor; eauto.
Qed.

Lemma create_rel : forall c a1 a2 m, hashmapCreate c a1 a2 = Some m -> Rel m aempty.
Proof.
  intros c a1 a2 m H. destruct (create_inv c a1 a2 m H) as [I E]. constructor; auto.
  intros k. unfold aempty. assert (L : look m k = None).
  { apply look_none; auto. rewrite E. cbn. tauto. }
  rewrite L. reflexivity.
Qed.

(** C01 *)
Lemma hashmap_refines : forall c a1 a2 m ops,
  hashmapCreate c a1 a2 = Some m ->
  exists a, arun equals aempty ops a (snd (run hash equals m ops)) /\
    forall k, hashmapGet hash equals (fst (run hash equals m ops)) k = value_or_null (a k) /\
              hashmapContainsKey hash equals (fst (run hash equals m ops)) k
                = match a k with Some _ => true | None => false end.
Proof.
  intros c a1 a2 m ops H. apply create_rel in H. destruct (run_rel ops m aempty H) as (a & A & R).
  exists a. split; auto. intros k. split.
  - unfold hashmapGet. fold (look (fst (run hash equals m ops)) k). rewrite (R_map _ _ R).
    destruct (look _ k); reflexivity.
  - unfold hashmapContainsKey. fold (look (fst (run hash equals m ops)) k). rewrite (R_map _ _ R).
    destruct (look _ k); reflexivity.
Qed.

(** ForEach *)
Lemma forEach_chain_visit : forall S (cb : S -> Z -> Z -> bool * S) c s (rest : list (Z * Z)),
  visit cb s (map binding c ++ rest) =
  (let (go, s') := forEach_chain cb s c in if go then visit cb s' rest else s').
Proof.
  induction c as [|e r IH]; intros s rest; cbn; auto.
  destruct (cb s (hk e) (hv e)) as [[] s']; auto.
Qed.

Lemma forEach_visit : forall S (cb : S -> Z -> Z -> bool * S) b s,
  forEach_buckets cb s b = visit cb s (map binding (concat b)).
Proof.
  induction b as [|c r IH]; intros s; cbn; auto.
  rewrite map_app, forEach_chain_visit. destruct (forEach_chain cb s c) as [[] s']; auto.
Qed.

(** C02 *)
Lemma hashmap_foreach : forall c a1 a2 m ops,
  hashmapCreate c a1 a2 = Some m ->
  let m' := fst (run hash equals m ops) in
  exists a l, arun equals aempty ops a (snd (run hash equals m ops)) /\
    enumerates equals a l /\
    hashmapSize m' = Z.of_nat (length l) /\
    (forall S (cb : S -> Z -> Z -> bool * S) s, hashmapForEach m' cb s = visit cb s l) /\
    map (fun e => (hk e, hv e)) (hashmapFree_entries m') = l.
Proof.
  intros c a1 a2 m ops H m'. apply create_rel in H. destruct (run_rel ops m aempty H) as (a & A & R).
  exists a, (map binding (concat (buckets m'))). split; auto. split; [apply enumerates_all; auto|].
  split.
  - unfold hashmapSize, m'. rewrite (I_size _ (R_inv _ _ R)), map_length. reflexivity.
  - split; [intros; apply forEach_visit|reflexivity].
Qed.

(** C04 *)
Lemma run_inv : forall ops m, Inv m -> Inv (fst (run hash equals m ops)).
Proof.
  intros ops m I. set (a := fun k => option_map binding (look m k)).
  assert (R : Rel m a) by (constructor; auto). destruct (run_rel ops m a R) as (a' & _ & R'). apply R'.
Qed.

Lemma hashmap_pow2 : forall c a1 a2 m ops, hashmapCreate c a1 a2 = Some m ->
  exists j, 0 <= j /\ bucketCount (fst (run hash equals m ops)) = 2 ^ j.
Proof. intros c a1 a2 m ops H. destruct (create_inv _ _ _ _ H) as [I _]. apply (run_inv ops m I). Qed.

(** No growth allocation fails in the history. *)
Definition growth_ok (o : op) : Prop :=
  match o with OpPut _ _ _ a2 => a2 = true | OpMemoize _ _ _ a2 => a2 = true | _ => True end.

Definition loadok (m : hmap) : Prop := hsize m <= bucketCount m * 3 / 4.

Lemma with_chain_0 : forall m h f, hsize (with_chain m h f 0) = hsize m.
Proof. intros. cbn. lia. Qed.

Lemma expand_load : forall m, Inv m -> bucketCount m * 16 < 9223372036854775808 ->
  hsize m <= bucketCount m * 3 / 4 + 1 ->
  loadok (expandIfNecessary true m).
Proof.
  intros m I Hb Hs. unfold loadok, expandIfNecessary.
  destruct (bucketCount m * 3 / 4 <? hsize m) eqn:E; [|lia].
  destruct (I_pow m I) as (j & Hj & Ej).
  rewrite Z.shiftl_mul_pow2 by lia. change (2 ^ 1) with 2.
  unfold calloc_ok. replace (true && (bucketCount m * 2 * 8 <? 9223372036854775808)) with true by lia.
  cbn [hsize bucketCount].
  assert (1 <= bucketCount m). { rewrite Ej. pose proof (Z.pow_pos_nonneg 2 j). lia. }
  Ltac Zify.zify_post_hook ::= Z.div_mod_to_equations. lia.
Qed.

Lemma step_load : forall m o, Inv m -> growth_ok o -> bucketCount m * 16 < 9223372036854775808 ->
  loadok m -> loadok (fst (step hash equals m o)).
Proof.
  intros m o I G Hb L. unfold loadok in L.
  destruct o as [k v a1 a2|k|k|k f a1 a2|k|]; cbn [step]; cbn in G; subst; auto.
  - unfold hashmapPut. fold (look m k). destruct (look m k) as [e|] eqn:E; cbn [fst].
    + unfold loadok. rewrite with_chain_0. exact L.
    + destruct a1; auto. cbn [fst]. apply expand_load; try (apply insert_ok; auto); cbn; lia.
  - unfold hashmapMemoize. fold (look m k). destruct (look m k) as [e|] eqn:E; cbn [fst]; auto.
    destruct a1; auto. cbn [fst]. apply expand_load; try (apply insert_ok; auto); cbn; lia.
  - unfold hashmapRemove. fold (look m k). destruct (look m k) as [e|] eqn:E; cbn [fst]; auto.
    unfold loadok. cbn. lia.
Qed.

(** Bucket counts only grow when the table is loaded. *)
Lemma step_bc : forall m o, Inv m ->
  bucketCount (fst (step hash equals m o)) = bucketCount m \/
  (bucketCount (fst (step hash equals m o)) = bucketCount m * 2 /\
   bucketCount m * 3 / 4 < hsize (fst (step hash equals m o))).
Proof.
  intros m o I.
  assert (X : forall a m1, bucketCount m1 = bucketCount m ->
    bucketCount (expandIfNecessary a m1) = bucketCount m \/
    (bucketCount (expandIfNecessary a m1) = bucketCount m * 2 /\
     bucketCount m * 3 / 4 < hsize (expandIfNecessary a m1))).
  { intros a m1 E. unfold expandIfNecessary. rewrite E.
    destruct (bucketCount m * 3 / 4 <? hsize m1) eqn:E1; [|auto].
    destruct (calloc_ok a (Z.shiftl (bucketCount m) 1)); [|auto]. right. cbn [bucketCount hsize].
    rewrite Z.shiftl_mul_pow2 by lia. split; [reflexivity|lia]. }
  destruct o as [k v a1 a2|k|k|k f a1 a2|k|]; cbn [step]; auto.
  - unfold hashmapPut. destruct (chain_find _ _ _ _); cbn; auto. destruct a1; cbn [fst]; auto.
  - unfold hashmapMemoize. destruct (chain_find _ _ _ _); cbn; auto. destruct a1; cbn [fst]; auto.
  - unfold hashmapRemove. destruct (chain_find _ _ _ _); cbn; auto.
Qed.

Fixpoint sizes (m : hmap) (l : list op) : list Z :=
  match l with
  | [] => [hsize m]
  | o :: r => hsize m :: sizes (fst (step hash equals m o)) r
  end.

Lemma run_cons : forall m o l, fst (run hash equals m (o :: l)) = fst (run hash equals (fst (step hash equals m o)) l).
Proof.
  intros. cbn. destruct (step hash equals m o) as [m1 x]. cbn. destruct (run hash equals m1 l). reflexivity.
Qed.

Lemma step_inv : forall m o, Inv m -> Inv (fst (step hash equals m o)).
Proof.
  intros m o I. pose proof (run_inv [o] m I) as H. rewrite run_cons in H. cbn in H. exact H.
Qed.

Lemma run_load : forall ops m, Inv m -> Forall growth_ok ops -> loadok m ->
  (forall p, (p <= length ops)%nat ->
     bucketCount (fst (run hash equals m (firstn p ops))) * 16 < 9223372036854775808) ->
  loadok (fst (run hash equals m ops)).
Proof.
  induction ops as [|o l IH]; intros m I G L B; auto.
  inversion G; subst. rewrite run_cons. apply IH; auto.
  - apply step_inv; auto.
  - apply step_load; auto. specialize (B 0%nat ltac:(cbn; lia)). cbn in B. auto.
  - intros p Hp. specialize (B (S p) ltac:(cbn; lia)). cbn [firstn] in B. rewrite run_cons in B. auto.
Qed.

Lemma create_load : forall c a1 a2 m, hashmapCreate c a1 a2 = Some m -> loadok m.
Proof.
  intros c a1 a2 m H. pose proof (create_inv _ _ _ _ H) as [I E]. unfold loadok.
  rewrite (I_size m I), E. cbn. destruct (I_pow m I) as (j & Hj & Ej). rewrite Ej.
  pose proof (Z.pow_pos_nonneg 2 j ltac:(lia) Hj). apply Z.div_pos; lia.
Qed.

Lemma create_capacity : forall c a1 a2 m, hashmapCreate c a1 a2 = Some m ->
  0 <= c < 2 ^ 62 -> c <= hashmapCurrentCapacity m /\ hashmapCurrentCapacity m <= 2 * c + 1.
Proof.
  intros c a1 a2 m H Hc. unfold hashmapCreate in H. destruct a1; [|discriminate].
  destruct (create_bc c) as (j & Hj & E & Hlt & Hmin). rewrite E in H.
  destruct (calloc_ok a2 (2 ^ j)); [|discriminate]. inversion H; subst m. unfold hashmapCurrentCapacity. cbn [bucketCount].
  assert (Eu : to_u64 (c * 4) = c * 4) by (unfold to_u64; apply Z.mod_small; lia).
  rewrite Eu in *. split.
  - Ltac Zify.zify_post_hook ::= Z.div_mod_to_equations. lia.
  - destruct (Z.eq_dec j 0) as [->|Nj]; [|destruct Hmin as [->|Hmin]; [lia|]].
    + change (2 ^ 0) with 1 in *. assert (c = 0) by lia. subst c. cbn. lia.
    + assert (E2 : 2 ^ j = 2 * 2 ^ (j - 1)).
      { rewrite <- Z.pow_succ_r by lia. replace (Z.succ (j - 1)) with j by lia. reflexivity. }
      rewrite E2. lia.
Qed.

(** While no more than [capacity] entries were ever present the table does not grow. *)
Lemma run_no_growth : forall ops m, Inv m ->
  (forall p, (p <= length ops)%nat ->
     hsize (fst (run hash equals m (firstn p ops))) <= hashmapCurrentCapacity m) ->
  bucketCount (fst (run hash equals m ops)) = bucketCount m.
Proof.
  induction ops as [|o l IH]; intros m I B; auto.
  rewrite run_cons. unfold hashmapCurrentCapacity in *.
  assert (E : bucketCount (fst (step hash equals m o)) = bucketCount m).
  { destruct (step_bc m o I) as [E|[E1 E2]]; auto.
    specialize (B 1%nat ltac:(cbn; lia)). cbn [firstn] in B. rewrite run_cons in B. cbn [run fst] in B. lia. }
  rewrite IH; auto.
  - apply step_inv; auto.
  - intros p Hp. specialize (B (S p) ltac:(cbn; lia)). cbn [firstn] in B. rewrite run_cons in B. rewrite E. exact B.
Qed.

(** Collisions: entries beyond the first of each chain. *)
Lemma collisions_count : forall bs acc,
  fold_left (fun acc c => acc + Z.of_nat (pred (length c))) bs acc =
  acc + Z.of_nat (length (concat bs)) - Z.of_nat (length (filter (fun c : list hentry => negb (Nat.eqb (length c) 0)) bs)).
Proof.
  induction bs as [|c bs IH]; intros acc; cbn [fold_left concat filter]; [cbn; lia|].
  rewrite IH, app_length. destruct c as [|e c]; cbn [length Nat.eqb negb pred]; lia.
Qed.
Lemma hashmap_collisions : forall c a1 a2 m ops, hashmapCreate c a1 a2 = Some m ->
  let m' := fst (run hash equals m ops) in
  exists occupied, NoDup occupied /\ (forall i, In i occupied <-> nth i (buckets m') [] <> []) /\ hashmapCountCollisions m' = hashmapSize m' - Z.of_nat (length occupied).
Proof.
  intros c a1 a2 m ops H m'. destruct (create_inv _ _ _ _ H) as [I _].
  pose proof (run_inv ops m I) as I'. fold m' in I'.
  exists (filter (fun i => negb (Nat.eqb (length (nth i (buckets m') [])) 0)) (seq 0 (length (buckets m')))).
  split; [apply NoDup_filter, seq_NoDup|]. split.
  - intros i. rewrite filter_In, in_seq. split.
    + intros [_ Q] E. rewrite E in Q. discriminate Q.
    + intros Q. split.
      * split; [lia|]. cbn. destruct (Nat.lt_ge_cases i (length (buckets m'))) as [|G]; auto. rewrite nth_overflow in Q by lia. congruence.
      * destruct (nth i (buckets m') []); [congruence|reflexivity].
  - unfold hashmapCountCollisions, hashmapSize. rewrite collisions_count, (I_size _ I'). rewrite Z.add_0_l. do 2 f_equal.
    generalize (buckets m'). intros bs. clear.
    assert (G : forall pre bs, length (filter (fun c : list hentry => negb (Nat.eqb (length c) 0)) bs) =
      length (filter (fun i => negb (Nat.eqb (length (nth i (pre ++ bs) [])) 0)) (seq (length pre) (length bs)))).
    { intros pre bs0. revert pre. induction bs0 as [|c bs0 IH]; intros pre; cbn [filter length seq]; [reflexivity|].
      rewrite app_nth2, Nat.sub_diag by lia. cbn [nth].
      specialize (IH (pre ++ [c])). rewrite app_length, <- app_assoc in IH. cbn [length app] in IH. rewrite Nat.add_1_r in IH.
      destruct (negb _); cbn [length]; rewrite IH; reflexivity. }
    apply (G []).
Qed.
(** * Load factor without side conditions on bucket counts *)

Lemma step_size : forall m o, Inv m -> hsize (fst (step hash equals m o)) <= hsize m + 1.
Proof.
  intros m o I.
  assert (X : forall a m1, hsize (expandIfNecessary a m1) = hsize m1).
  { intros a m1. unfold expandIfNecessary. destruct (_ <? _); auto. destruct (calloc_ok _ _); auto. }
  destruct o as [k v a1 a2|k|k|k f a1 a2|k|]; cbn [step]; try (cbn; lia).
  - unfold hashmapPut. destruct (chain_find _ _ _ _); cbn; try lia. destruct a1; cbn [fst]; try lia. rewrite X. cbn. lia.
  - unfold hashmapMemoize. destruct (chain_find _ _ _ _); cbn; try lia. destruct a1; cbn [fst]; try lia. rewrite X. cbn. lia.
  - unfold hashmapRemove. destruct (chain_find _ _ _ _); cbn; lia.
Qed.

Lemma run_bc_bound : forall ops m, Inv m -> bucketCount m < 2 ^ 59 ->
  hsize m + Z.of_nat (length ops) <= 2 ^ 57 ->
  bucketCount (fst (run hash equals m ops)) < 2 ^ 59.
Proof.
  induction ops as [|o l IH]; intros m I Hb Hs; auto.
  rewrite run_cons. pose proof (step_size m o I) as S1. cbn [length] in Hs.
  apply IH.
  - apply step_inv; auto.
  - destruct (step_bc m o I) as [E|[E1 E2]]; [lia|]. rewrite E1.
    change (2 ^ 59) with 576460752303423488 in *. change (2 ^ 57) with 144115188075855872 in *. lia.
  - lia.
Qed.

Lemma firstn_len_le : forall {A} p (l : list A), (length (firstn p l) <= length l)%nat.
Proof. intros. rewrite firstn_length. lia. Qed.

Lemma create_bc_bound : forall c a1 a2 m, hashmapCreate c a1 a2 = Some m ->
  0 <= c <= 2 ^ 57 -> bucketCount m < 2 ^ 59.
Proof.
  intros c a1 a2 m H Hc. unfold hashmapCreate in H. destruct a1; [|discriminate].
  destruct (create_bc c) as (j & Hj & E & Hlt & Hmin). rewrite E in H.
  destruct (calloc_ok a2 (2 ^ j)); [|discriminate]. inversion H; subst m. cbn [bucketCount].
  assert (Eu : to_u64 (c * 4) = c * 4) by (unfold to_u64; apply Z.mod_small; lia).
  rewrite Eu in *. destruct (Z.eq_dec j 0) as [->|Nj]; [cbn; lia|]. destruct Hmin as [->|Hmin]; [lia|].
  assert (E2 : 2 ^ j = 2 * 2 ^ (j - 1)).
  { rewrite <- Z.pow_succ_r by lia. replace (Z.succ (j - 1)) with j by lia. reflexivity. }
  change (2 ^ 59) with 576460752303423488 in *. change (2 ^ 57) with 144115188075855872 in *. lia.
Qed.

Lemma hashmap_load : forall c a1 a2 m ops, hashmapCreate c a1 a2 = Some m ->
  0 <= c <= 2 ^ 57 -> Z.of_nat (length ops) <= 2 ^ 57 -> Forall growth_ok ops ->
  hashmapSize (fst (run hash equals m ops)) <= hashmapCurrentCapacity (fst (run hash equals m ops)).
Proof.
  intros c a1 a2 m ops H Hc Hl G. destruct (create_inv _ _ _ _ H) as [I E].
  apply run_load; auto; [eapply create_load; eauto|].
  intros p Hp. pose proof (run_bc_bound (firstn p ops) m I (create_bc_bound _ _ _ _ H Hc)) as B.
  pose proof (firstn_len_le p ops). rewrite (I_size m I), E in B. cbn [length] in B.
  change (2 ^ 59) with 576460752303423488 in *. lia.
Qed.

Lemma hashmap_no_growth : forall c a1 a2 m ops, hashmapCreate c a1 a2 = Some m -> 0 <= c < 2 ^ 62 ->
  (forall p, (p <= length ops)%nat -> hashmapSize (fst (run hash equals m (firstn p ops))) <= c) ->
  bucketCount (fst (run hash equals m ops)) = bucketCount m.
Proof.
  intros c a1 a2 m ops H Hc B. destruct (create_inv _ _ _ _ H) as [I _].
  destruct (create_capacity _ _ _ _ H Hc) as [C _].
  apply run_no_growth; auto. intros p Hp. specialize (B p Hp). unfold hashmapSize in B. lia.
Qed.

(** * Allocation failures *)

Definition forget_growth (o : op) : op :=
  match o with
  | OpPut k v a1 _ => OpPut k v a1 true
  | OpMemoize k f a1 _ => OpMemoize k f a1 true
  | _ => o
  end.

Lemma enumerates_nodup : forall a l, enumerates equals a l -> NoDup l.
Proof.
  intros a l [F _]. induction F as [|x l F P IH]; constructor; auto.
  intros Hin. rewrite Forall_forall in F. specialize (F x Hin). rewrite Erefl in F. discriminate.
Qed.

Lemma enumerates_in : forall a l b, enumerates equals a l -> (In b l <-> a (fst b) = Some b).
Proof.
  intros a l b [F E]. rewrite E. split; [intros; split; auto | tauto].
Qed.

Lemma enumerates_length : forall a1 a2 l1 l2, same_map a1 a2 ->
  enumerates equals a1 l1 -> enumerates equals a2 l2 -> length l1 = length l2.
Proof.
  intros a1 a2 l1 l2 S E1 E2. apply Nat.le_antisymm; apply NoDup_incl_length;
    try (eapply enumerates_nodup; eauto); intros b Hb.
  - rewrite (enumerates_in a2) by auto. rewrite (enumerates_in a1) in Hb by auto. rewrite <- S. auto.
  - rewrite (enumerates_in a1) by auto. rewrite (enumerates_in a2) in Hb by auto. rewrite S. auto.
Qed.

Lemma aset_same : forall m1 m2 k b, same_map m1 m2 -> same_map (aset equals m1 k b) (aset equals m2 k b).
Proof. intros m1 m2 k b S k0. unfold aset. destruct (equals k k0); auto. Qed.

Lemma astep_det : forall m1 m2 o1 o2 m1' m2' x1 x2, same_map m1 m2 ->
  forget_growth o1 = forget_growth o2 ->
  astep equals m1 o1 m1' x1 -> astep equals m2 o2 m2' x2 -> x1 = x2 /\ same_map m1' m2'.
Proof.
  intros m1 m2 o1 o2 m1' m2' x1 x2 S Eo A1 A2.
  assert (Sk : forall k, m1 k = m2 k) by exact S.
  destruct A1; inversion A2; subst; cbn in Eo; try discriminate; inversion Eo; subst; clear Eo A2;
    repeat match goal with H : _ _ = None |- _ => rewrite Sk in H | H : _ _ = Some _ |- _ => rewrite Sk in H end;
    try congruence;
    repeat match goal with
    | H1 : ?a ?k = Some _, H2 : ?a ?k = Some _ |- _ => rewrite H1 in H2; inversion H2; subst; clear H2
    end; rewrite ?Sk; try (split; [congruence|first [assumption | apply aset_same; assumption]]).
  split; [|auto]. do 2 f_equal. eapply enumerates_length; eauto.
Qed.

Lemma arun_det : forall l1 l2 m1 m2 m1' m2' xs1 xs2, same_map m1 m2 ->
  map forget_growth l1 = map forget_growth l2 ->
  arun equals m1 l1 m1' xs1 -> arun equals m2 l2 m2' xs2 -> xs1 = xs2 /\ same_map m1' m2'.
Proof.
  induction l1 as [|o1 l1 IH]; intros [|o2 l2] m1 m2 m1' m2' xs1 xs2 S E A1 A2; try discriminate;
    inversion A1; subst; inversion A2; subst; auto.
  cbn in E. inversion E.
  match goal with H1 : astep _ m1 _ _ _, H2 : astep _ m2 _ _ _ |- _ =>
    destruct (astep_det _ _ _ _ _ _ _ _ S ltac:(eassumption) H1 H2) as [-> S'] end.
  match goal with H1 : arun _ _ l1 _ _, H2 : arun _ _ l2 _ _ |- _ =>
    destruct (IH _ _ _ _ _ _ _ S' ltac:(eassumption) H1 H2) as [-> S''] end.
  auto.
Qed.

Lemma growth_invisible : forall c a1 a2 m ops1 ops2, hashmapCreate c a1 a2 = Some m ->
  map forget_growth ops1 = map forget_growth ops2 ->
  snd (run hash equals m ops1) = snd (run hash equals m ops2).
Proof.
  intros c a1 a2 m l1 l2 H E. apply create_rel in H.
  destruct (run_rel l1 m aempty H) as (b1 & A1 & _). destruct (run_rel l2 m aempty H) as (b2 & A2 & _).
  eapply arun_det; eauto. intros k. reflexivity.
Qed.

Lemma oom_atomic_put : forall m k v a1 a2 m' rc p, 
  hashmapPut hash equals m k v a1 a2 = (m', rc, p) -> rc <> 0 ->
  rc = - ENOMEM /\ a1 = false /\ m' = m.
Proof.
  intros m k v a1 a2 m' rc p H N. unfold hashmapPut in H.
  destruct (chain_find _ _ _ _); [inversion H; congruence|]. destruct a1; inversion H; subst; auto; congruence.
Qed.

Lemma oom_atomic_memoize : forall m k f a1 a2 m' rc p l,
  hashmapMemoize hash equals m k f a1 a2 = (m', rc, p, l) -> rc <> 0 ->
  rc = - ENOMEM /\ a1 = false /\ m' = m /\ l = [].
Proof.
  intros m k f a1 a2 m' rc p l H N. unfold hashmapMemoize in H.
  destruct (chain_find _ _ _ _); [inversion H; congruence|]. destruct a1; inversion H; subst; auto; congruence.
Qed.
End Client.
