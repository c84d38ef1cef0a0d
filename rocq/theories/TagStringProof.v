From Coq Require Import ZArith List Bool Lia ZifyBool.
Import ListNotations.
From Verif Require Import TagStringModel TagStringSpec.
Open Scope Z_scope.

Lemma same_eq : forall a b, same a b = true <-> a = b.
Proof.
  induction a as [|x a IH]; intros [|y b]; cbn; split; intros H; try discriminate; auto.
  - apply andb_true_iff in H as [H1 H2]. apply IH in H2. subst. f_equal. lia.
  - inversion H; subst. rewrite Z.eqb_refl. apply IH. auto.
Qed.

Lemma sub_app : forall a m b, sub (a ++ m ++ b) (Z.of_nat (length a)) (Z.of_nat (length m)) = Some m.
Proof.
  intros a m b. unfold sub. rewrite !app_length.
  replace (_ && _) with true by lia. rewrite !Nat2Z.id.
  rewrite skipn_app, Nat.sub_diag, skipn_all. cbn [skipn app]. rewrite firstn_app, Nat.sub_diag, firstn_all. cbn. rewrite app_nil_r. reflexivity.
Qed.

(** * Well-formed tag strings *)
Lemma loop_spaces : forall n t key r i a b c, loop t key (repeat 32 n ++ r) i (St 0 a b c) = loop t key r (i + Z.of_nat n) (St 0 a b c).
Proof.
  induction n as [|n IH]; intros; cbn [repeat app].
  - replace (i + Z.of_nat 0) with i by lia. reflexivity.
  - cbn [loop state Z.eqb Pos.eqb]. rewrite IH. f_equal. lia.
Qed.

Lemma loop_key1 : forall k t key r i a b c, Forall (fun c => c <> 32 /\ c <> 58) k ->
  loop t key (k ++ r) i (St 1 a b c) = loop t key r (i + Z.of_nat (length k)) (St 1 a b c).
Proof.
  induction k as [|x k IH]; intros t key r i a b c F; cbn [app].
  - replace (i + Z.of_nat (length [])) with i by (cbn; lia). reflexivity.
  - inversion F as [|? ? [H1 H2] F']; subst. cbn [loop state Z.eqb Pos.eqb].
    replace (x =? 32) with false by lia. replace (x =? 58) with false by lia. rewrite IH by auto. f_equal. cbn [length]. lia.
Qed.

Lemma loop_key : forall k t key r i a b c, is_key k ->
  loop t key (k ++ r) i (St 0 a b c) = loop t key r (i + Z.of_nat (length k)) (St 1 i b c).
Proof.
  intros [|x k] t key r i a b c [N F]; [congruence|]. inversion F as [|? ? [H1 H2] F']; subst.
  cbn [app loop state Z.eqb Pos.eqb]. replace (x =? 32) with false by lia. rewrite loop_key1 by auto. f_equal. cbn [length]. lia.
Qed.

Lemma loop_value : forall v t key r i a b c, Forall wf_vch v ->
  loop t key (value_text v ++ r) i (St 3 a b c) = loop t key r (i + Z.of_nat (length (value_text v))) (St 3 a b c).
Proof.
  induction v as [|x v IH]; intros t key r i a b c F; unfold value_text; cbn [flat_map app].
  - replace (i + Z.of_nat (length [])) with i by (cbn; lia). reflexivity.
  - fold (value_text v). inversion F as [|? ? H F']; subst. destruct x as [x|x]; cbn [vch_text app length wf_vch] in *.
    + cbn [loop state Z.eqb Pos.eqb]. replace (x =? 92) with false by lia. replace (x =? 34) with false by lia. rewrite IH by auto. f_equal. lia.
    + cbn [loop state Z.eqb Pos.eqb]. rewrite IH by auto. f_equal. lia.
Qed.

Lemma loop_junk : forall j t key r i a b c, Forall (fun x => x <> 32) j ->
  loop t key (j ++ r) i (St (-1) a b c) = loop t key r (i + Z.of_nat (length j)) (St (-1) a b c).
Proof.
  induction j as [|x j IH]; intros t key r i a b c F; cbn [app].
  - replace (i + Z.of_nat (length [])) with i by (cbn; lia). reflexivity.
  - inversion F; subst. cbn [loop state Z.eqb Pos.eqb]. replace (x =? 32) with false by lia. cbn [negb]. rewrite IH by auto. f_equal. cbn [length]. lia.
Qed.

Definition res_of (o : option (list Z)) : res := match o with Some v => Found v | None => Null end.

Lemma loop_pieces : forall ps t pre key a b c, Forall wf_piece ps -> t = pre ++ tag_text ps ->
  loop t key (tag_text ps) (Z.of_nat (length pre)) (St 0 a b c) = res_of (first_value ps key).
Proof.
  induction ps as [|p ps IH]; intros t pre key a b c F E; [reflexivity|].
  unfold tag_text in *. cbn [flat_map] in *. fold (tag_text ps) in *. inversion F as [|? ? W F']; subst.
  assert (K : forall x y z, loop (pre ++ piece_text p ++ tag_text ps) key (tag_text ps) (Z.of_nat (length (pre ++ piece_text p))) (St 0 x y z) =
     res_of (first_value ps key)).
  { intros. apply IH; auto. rewrite app_assoc. reflexivity. }
  rewrite app_length, Nat2Z.inj_add in K.
  set (t := pre ++ piece_text p ++ tag_text ps) in *.
  destruct p as [k v|n|w|k x j]; cbn [piece_text wf_piece first_value] in *.
  - destruct W as [Wk Wv]. rewrite <- !app_assoc. rewrite loop_key by auto. cbn [app]. cbn [loop state Z.eqb Pos.eqb negb kb kl vb].
    rewrite loop_value by auto. cbn [app]. cbn [loop state Z.eqb Pos.eqb kb kl vb].
    set (i := Z.of_nat (length pre)) in *.
    replace (i + Z.of_nat (length k) - i) with (Z.of_nat (length k)) by lia.
    assert (S1 : sub t i (Z.of_nat (length k)) = Some k).
    { unfold t, i. rewrite <- !app_assoc. apply sub_app. }
    assert (S2 : sub t (i + Z.of_nat (length k) + 1 + 1) (i + Z.of_nat (length k) + 1 + 1 + Z.of_nat (length (value_text v)) - (i + Z.of_nat (length k) + 1) - 1)
                 = Some (value_text v)).
    { replace (_ - _ - 1) with (Z.of_nat (length (value_text v))) by lia.
      replace (i + Z.of_nat (length k) + 1 + 1) with (Z.of_nat (length (pre ++ k ++ [58; 34]))).
      - replace t with ((pre ++ k ++ [58; 34]) ++ value_text v ++ [34] ++ tag_text ps); [apply sub_app|].
        unfold t. repeat rewrite <- app_assoc. reflexivity.
      - unfold i. rewrite !app_length. cbn [length]. lia. }
    assert (K' : forall x y z, loop t key (tag_text ps) (i + Z.of_nat (length k) + 1 + 1 + Z.of_nat (length (value_text v)) + 1) (St 0 x y z) = res_of (first_value ps key)).
    { intros. rewrite <- (K x y z). f_equal. repeat (rewrite app_length; cbn [length app]). lia. }
    destruct (Z.of_nat (length key) =? Z.of_nat (length k)) eqn:L.
    + rewrite S1. destruct (same k key) eqn:Sm.
      * apply same_eq in Sm. subst key. destruct (list_eq_dec Z.eq_dec k k); [|congruence]. rewrite S2. reflexivity.
      * destruct (list_eq_dec Z.eq_dec k key) as [->|N]; [|apply K'].
        assert (same key key = true) by (apply same_eq; auto). congruence.
    + destruct (list_eq_dec Z.eq_dec k key) as [->|N]; [lia|]. apply K'.
  - rewrite loop_spaces. rewrite repeat_length in K. apply K.
  - rewrite <- app_assoc. rewrite loop_key by auto. cbn [app]. cbn [loop state Z.eqb Pos.eqb kb kl vb].
    rewrite <- (K (Z.of_nat (length pre)) b c). f_equal. rewrite app_length. cbn [length]. lia.
  - destruct W as (Wk & Wc & Wj). rewrite <- !app_assoc. rewrite loop_key by auto. cbn [app]. cbn [loop state Z.eqb Pos.eqb kb kl vb].
    replace (x =? 34) with false by lia. cbn [negb]. rewrite loop_junk by auto. cbn [app].
    cbn [loop state Z.eqb Pos.eqb negb kb kl vb]. rewrite <- K with (x := Z.of_nat (length pre)) (y := Z.of_nat (length pre) + Z.of_nat (length k) - Z.of_nat (length pre)) (z := c).
    f_equal. repeat (rewrite app_length; cbn [length app]). lia.
Qed.

Lemma lookup_pieces : forall ps key, Forall wf_piece ps -> lookup (tag_text ps) key = res_of (first_value ps key).
Proof. intros ps key F. unfold lookup, st0. apply (loop_pieces ps (tag_text ps) [] key); auto. Qed.

(** * Arbitrary text *)
(** What the variables mean at position [i = length a]. *)
Definition inv (a : list Z) (s : st) : Prop :=
  (state s = -1) \/ (state s = 0 /\ starts a) \/
  (exists b k, (state s = 1 /\ a = b ++ k \/ state s = 2 /\ a = b ++ k ++ [58] /\ kl s = Z.of_nat (length k) \/
     (state s = 3 \/ state s = 4) /\ exists v, Forall wf_vch v /\ kl s = Z.of_nat (length k) /\ vb s = Z.of_nat (length (b ++ k ++ [58])) /\
        a = b ++ k ++ [58; 34] ++ value_text v ++ (if state s =? 4 then [92] else [])) /\
     k <> [] /\ ~ In 32 k /\ starts b /\ kb s = Z.of_nat (length b)).

Definition good (t key : list Z) (x : res) : Prop :=
  x = Null \/ exists v a v' r, x = Found v /\ t = a ++ key ++ [58; 34] ++ v ++ [34] ++ r /\ starts a /\
    key <> [] /\ ~ In 32 key /\ Forall wf_vch v' /\ v = value_text v'.

Lemma starts_snoc : forall a c, c = 32 \/ c = 34 -> starts (a ++ [c]).
Proof. intros. right. eauto. Qed.

Lemma loop_good : forall t key rest a s, t = a ++ rest -> inv a s -> good t key (loop t key rest (Z.of_nat (length a)) s).
Proof.
  intros t key. induction rest as [|c r IH]; intros a s E I; [left; reflexivity|].
  assert (E' : t = (a ++ [c]) ++ r) by (rewrite <- app_assoc; exact E).
  assert (G : forall s', inv (a ++ [c]) s' -> good t key (loop t key r (Z.of_nat (length a) + 1) s')).
  { intros s' I'. replace (Z.of_nat (length a) + 1) with (Z.of_nat (length (a ++ [c]))) by (rewrite app_length; cbn; lia). apply IH; auto. }
  cbn [loop]. destruct I as [I|[[I S0]|(b & k & I & Kn & Ks & Sb & Ekb)]].
  - rewrite I. cbn [Z.eqb Pos.eqb]. destruct (c =? 32) eqn:C; cbn [negb].
    + apply G. right. left. split; [reflexivity|]. apply starts_snoc. lia.
    + apply G. left. auto.
  - rewrite I. cbn [Z.eqb Pos.eqb]. destruct (c =? 32) eqn:C; apply G.
    + right. left. split; auto. apply starts_snoc. lia.
    + right. right. exists a, [c]. split; [left; auto|]. split; [discriminate|]. split; [cbn; lia|]. split; auto.
  - destruct I as [[I Ea]|[(I & Ea & Ekl)|([I|I] & v & Fv & Ekl & Evb & Ea)]]; rewrite I; cbn [Z.eqb Pos.eqb].
    + destruct (c =? 32) eqn:C; [apply G; right; left; split; [reflexivity|]; apply starts_snoc; lia|].
      destruct (c =? 58) eqn:C2; apply G; right; right.
      * exists b, k. split; [|auto]. right. left. split; [reflexivity|]. split.
        -- rewrite Ea, <- app_assoc. replace c with 58 by lia. reflexivity.
        -- cbn [kl]. rewrite Ekb, Ea, app_length. lia.
      * exists b, (k ++ [c]). split; [left; split; auto; rewrite Ea, <- app_assoc; reflexivity|].
        split; [destruct k; discriminate|]. split; [rewrite in_app_iff; cbn; intuition lia|]. auto.
    + destruct (c =? 34) eqn:C; cbn [negb]; apply G.
      * right. right. exists b, k. split; [|auto]. right. right. split; [auto|]. exists []. split; [constructor|]. cbn [kl vb state Z.eqb Pos.eqb].
        split; auto. split; [rewrite Ea; reflexivity|]. rewrite Ea. replace c with 34 by lia. cbn [value_text flat_map app]. rewrite <- !app_assoc. reflexivity.
      * left. reflexivity.
    + rewrite I in Ea. cbn [Z.eqb Pos.eqb] in Ea. rewrite app_nil_r in Ea.
      destruct (c =? 92) eqn:C1.
      { apply G. right. right. exists b, k. split; [|auto]. right. right. split; [auto|]. exists v. cbn [kl vb state Z.eqb Pos.eqb]. repeat (split; [assumption|]).
        rewrite Ea, <- !app_assoc. replace c with 92 by lia. reflexivity. }
      destruct (c =? 34) eqn:C2.
      { assert (R : good t key (loop t key r (Z.of_nat (length a) + 1) (St 0 (kb s) (kl s) (vb s)))).
        { apply G. right. left. split; [reflexivity|]. apply starts_snoc. lia. }
        destruct (Z.of_nat (length key) =? kl s) eqn:L; [|exact R].
        assert (Et : t = b ++ k ++ [58; 34] ++ value_text v ++ [34] ++ r).
        { rewrite E, Ea, <- !app_assoc. replace c with 34 by lia. reflexivity. }
        rewrite Ekb, Ekl. replace (sub t (Z.of_nat (length b)) (Z.of_nat (length k))) with (Some k) by (rewrite Et; symmetry; apply sub_app).
        destruct (same k key) eqn:Sm; [|rewrite <- Ekb, <- Ekl; exact R].
        apply same_eq in Sm. subst key.
        replace (sub t (vb s + 1) (Z.of_nat (length a) - vb s - 1)) with (Some (value_text v)).
        2:{ symmetry. replace (Z.of_nat (length a) - vb s - 1) with (Z.of_nat (length (value_text v))).
            - replace (vb s + 1) with (Z.of_nat (length (b ++ k ++ [58; 34]))) by (rewrite Evb, !app_length; cbn; lia).
              replace t with ((b ++ k ++ [58; 34]) ++ value_text v ++ [34] ++ r) by (rewrite Et, <- !app_assoc; reflexivity). apply sub_app.
            - rewrite Evb, Ea, !app_length. cbn. lia. }
        right. exists (value_text v), b, v, r. auto 10. }
      apply G. right. right. exists b, k. split; [|auto]. right. right. split; [auto|]. exists (v ++ [Plain c]). rewrite I. cbn [Z.eqb Pos.eqb].
      split; [apply Forall_app; split; auto; constructor; [cbn; lia|constructor]|]. repeat (split; [assumption|]).
      rewrite Ea. unfold value_text. rewrite flat_map_app. cbn [flat_map vch_text app]. rewrite <- !app_assoc. reflexivity.
    + rewrite I in Ea. cbn [Z.eqb Pos.eqb] in Ea. apply G. right. right. exists b, k. split; [|auto]. right. right. split; [auto|]. exists (v ++ [Esc c]). cbn [kl vb state Z.eqb Pos.eqb].
      split; [apply Forall_app; split; auto; constructor; [cbn; auto|constructor]|]. repeat (split; [assumption|]).
      rewrite Ea. unfold value_text. rewrite flat_map_app. cbn [flat_map vch_text app]. repeat (rewrite <- app_assoc; cbn [app]). reflexivity.
Qed.

Lemma lookup_good : forall t key, good t key (lookup t key).
Proof. intros. apply (loop_good t key t [] st0); auto. right. left. split; [reflexivity|left; reflexivity]. Qed.
