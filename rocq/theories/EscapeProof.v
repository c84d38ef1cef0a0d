From Coq Require Import ZArith List Bool Lia ZifyBool.
Import ListNotations.
From Verif Require Import EscapeModel EscapeSpec.
Open Scope Z_scope.

Definition esc (c : Z) : list Z := match special special_chars c with Some o => [92; o] | None => [c] end.

Lemma special_cases : forall c o, special special_chars c = Some o -> unescape1 o = Some c /\ (7 <= c <= 13 \/ c = 92 \/ c = 39 \/ c = 34 \/ c = 63).
Proof.
  intros c o H. unfold special_chars in H. cbn [special] in H.
  repeat match type of H with (if ?b then _ else _) = _ => destruct b eqn:?; [inversion H; subst; split; [f_equal; cbn; f_equal; lia|lia]|] end. discriminate.
Qed.
Lemma special_none : forall c, special special_chars c = None -> c <> 92 /\ c <> 34 /\ ~ (7 <= c <= 13).
Proof.
  intros c H. unfold special_chars in H. cbn [special] in H.
  repeat match type of H with (if ?b then _ else _) = _ => destruct b eqn:?; [discriminate|] end. lia.
Qed.

Lemma presentable_spec : forall c, presentable c <-> (special special_chars c <> None \/ isprint c = true).
Proof.
  intros c. unfold presentable, isprint. split.
  - intros H. destruct (special special_chars c) eqn:E; [left; discriminate|]. apply special_none in E. right. lia.
  - intros [H|H]; [|lia]. destruct (special special_chars c) eqn:E; [|congruence]. apply special_cases in E. lia.
Qed.

Lemma needed_spec : forall s alloc, 0 <= alloc -> alloc + Z.of_nat (length (flat_map esc s)) <= 2147483647 ->
  (Forall presentable s -> needed s alloc = Ret (Some (alloc + Z.of_nat (length (flat_map esc s))))) /\
  (~ Forall presentable s -> needed s alloc = Ret None).
Proof.
  induction s as [|c s IH]; intros alloc Ha Hb; cbn [needed flat_map length] in *.
  - replace (2147483647 <? alloc) with false by lia. split; intros H; [do 2 f_equal; lia|]. exfalso. apply H. constructor.
  - rewrite app_length in Hb |- *. replace (2147483647 <? alloc) with false by lia. pose proof (presentable_spec c) as P.
    assert (F : Forall presentable (c :: s) <-> presentable c /\ Forall presentable s).
    { split; [intros H; inversion H; auto|intros [? ?]; constructor; auto]. }
    rewrite F. clear F.
    assert (Le : length (esc c) = match special special_chars c with Some _ => 2%nat | None => 1%nat end) by (unfold esc; destruct (special _ _); reflexivity).
    rewrite Le in *. destruct (special special_chars c) as [o|] eqn:E; cbn [length] in *.
    + destruct (IH (alloc + 2)) as [I1 I2]; [lia|lia|]. assert (presentable c) by (apply P; left; congruence).
      split; intros H0; [rewrite I1 by tauto; do 2 f_equal; lia|apply I2; tauto].
    + destruct (isprint c) eqn:Pr.
      * destruct (IH (alloc + 1)) as [I1 I2]; [lia|lia|]. assert (presentable c) by (apply P; auto).
        split; intros H0; [rewrite I1 by tauto; do 2 f_equal; lia|apply I2; tauto].
      * assert (~ presentable c) by (rewrite P; intros [Q|Q]; congruence). split; [tauto|reflexivity].
Qed.

Lemma fill_spec : forall s cap out, Forall presentable s -> Z.of_nat (length out) + Z.of_nat (length (flat_map esc s)) <= cap ->
  fill cap s out = Ret (out ++ flat_map esc s).
Proof.
  induction s as [|c s IH]; intros cap out F Hc; cbn [fill flat_map] in *; [rewrite app_nil_r; reflexivity|].
  inversion F as [|? ? P F']; subst. apply presentable_spec in P. rewrite app_length in Hc. unfold esc in Hc at 1. unfold esc at 1.
  destruct (special special_chars c) as [o|] eqn:E; cbn [length] in Hc.
  - unfold put. replace (_ <? cap) with true by lia. cbn [bind]. rewrite app_length. cbn [length]. replace (_ <? cap) with true by lia. cbn [bind].
    rewrite IH; auto; [rewrite <- !app_assoc; reflexivity|]. rewrite !app_length. cbn [length]. lia.
  - destruct P as [P|P]; [congruence|]. rewrite P. unfold put. replace (_ <? cap) with true by lia. cbn [bind].
    rewrite IH; auto; [rewrite <- !app_assoc; reflexivity|]. rewrite !app_length. cbn [length]. lia.
Qed.

Lemma unescape_app1 : forall c r, presentable c -> unescape (esc c ++ r) = option_map (cons c) (unescape r).
Proof.
  intros c r P. apply presentable_spec in P. unfold esc. destruct (special special_chars c) as [o|] eqn:E; cbn [app].
  - apply special_cases in E as [E _]. cbn [unescape]. rewrite E. destruct (unescape r); reflexivity.
  - destruct P as [P|P]; [congruence|]. apply special_none in E as (N1 & N2 & _). unfold isprint in P.
    cbn [unescape]. replace (c <? 32) with false by lia. replace (126 <? c) with false by lia.
    destruct c as [|p|p]; try lia. do 7 (destruct p as [p|p|]; try lia; try reflexivity).
Qed.

Lemma unescape_esc : forall s, Forall presentable s -> unescape (flat_map esc s) = Some s.
Proof.
  induction s as [|c s IH]; intros F; cbn [flat_map]; [reflexivity|]. inversion F; subst.
  rewrite unescape_app1 by auto. rewrite IH by auto. reflexivity.
Qed.

Lemma content_split : forall content : list Z, (2 <= length content)%nat -> content = removelast content ++ [last content 1].
Proof. intros content H. apply app_removelast_last. destruct content; [cbn in H; lia|discriminate]. Qed.

Lemma esc_bound : forall s, (length (flat_map esc s) <= 2 * length s)%nat.
Proof.
  induction s as [|c s IH]; cbn [flat_map length]; [lia|]. rewrite app_length. unfold esc at 1. destruct (special _ _); cbn [length]; lia.
Qed.

Lemma esc_printable : forall s, Forall presentable s -> Forall (fun c => 32 <= c <= 126) (flat_map esc s).
Proof.
  induction s as [|c s IH]; intros F; cbn [flat_map]; [constructor|]. inversion F as [|? ? P F']; subst. apply Forall_app. split; auto.
  apply presentable_spec in P. unfold esc. destruct (special special_chars c) as [o|] eqn:E.
  - constructor; [lia|]. constructor; [|constructor]. unfold special_chars in E. cbn [special] in E.
    repeat match type of E with (if ?b then _ else _) = _ => destruct b; [inversion E; lia|] end. discriminate.
  - destruct P as [P|P]; [congruence|]. unfold isprint in P. constructor; [lia|constructor].
Qed.

Lemma presentable_dec : forall c, {presentable c} + {~ presentable c}.
Proof.
  intros c. destruct (special special_chars c) eqn:E; [left; apply presentable_spec; left; congruence|].
  destruct (isprint c) eqn:P; [left; apply presentable_spec; auto|right; rewrite presentable_spec; intros [Q|Q]; congruence].
Qed.

(** Acceptable contents. *)
Definition acceptable (content s : list Z) : Prop := content = s ++ [0] /\ s <> [] /\ Forall presentable s.

Lemma printable_yes : forall content s a, Z.of_nat (length content) < 2 ^ 30 -> acceptable content s ->
  dprintable_string true content a = Ret (if a then Some (flat_map esc s ++ [0]) else None).
Proof.
  intros content s a L (-> & N & F). unfold dprintable_string. cbn [negb]. pose proof (esc_bound s) as B.
  rewrite app_length in L |- *. cbn [length] in *. change (2 ^ 30) with 1073741824 in L.
  replace (_ <? 2) with false by (destruct s; [congruence|cbn [length]; lia]).
  rewrite last_last, removelast_last. cbn [Z.eqb negb].
  destruct (needed_spec s 1) as [Nd _]; [lia|lia|]. rewrite (Nd F). cbn [bind]. destruct a; [|reflexivity]. cbn [negb].
  rewrite fill_spec by (auto; cbn [length]; lia). cbn [bind app]. unfold put. replace (_ <? _) with true by lia. cbn [bind].
  rewrite app_length. cbn [length]. replace (_ =? _) with true by lia. reflexivity.
Qed.

Lemma printable_no : forall content a b, Z.of_nat (length content) < 2 ^ 30 -> (b = false \/ forall s, ~ acceptable content s) ->
  dprintable_string b content a = Ret None.
Proof.
  intros content a b L H. unfold dprintable_string. destruct b; [|reflexivity]. destruct H as [H|H]; [discriminate|]. cbn [negb].
  destruct (Z.of_nat (length content) <? 2) eqn:L2; [reflexivity|].
  assert (E : content = removelast content ++ [last content 1]) by (apply content_split; lia).
  destruct (last content 1 =? 0) eqn:La; [|reflexivity]. cbn [negb]. replace (last content 1) with 0 in E by lia.
  set (s := removelast content) in *. assert (Ls : length content = S (length s)) by (rewrite E, app_length; cbn; lia).
  pose proof (esc_bound s) as B. change (2 ^ 30) with 1073741824 in L.
  destruct (needed_spec s 1) as [_ Nd]; [lia|lia|]. rewrite Nd; [reflexivity|].
  intros F. apply (H s). split; auto. split; auto. intros Q. rewrite Q in Ls. cbn in Ls. lia.
Qed.

Lemma printable_spec : forall content a b, Z.of_nat (length content) < 2 ^ 30 ->
  exists o, dprintable_string b content a = Ret o /\
   (o <> None <-> b = true /\ a = true /\ exists s, content = s ++ [0] /\ s <> [] /\ Forall presentable s) /\
   (forall out, o = Some out -> exists s body, content = s ++ [0] /\ out = body ++ [0] /\
      unescape body = Some s /\ Forall (fun c => 32 <= c <= 126) body).
Proof.
  intros content a b L.
  assert (D : (exists s, acceptable content s) \/ forall s, ~ acceptable content s).
  { destruct (Forall_dec presentable presentable_dec (removelast content)) as [F|F].
    - destruct (list_eq_dec Z.eq_dec content (removelast content ++ [0])) as [E|E].
      + destruct (removelast content) as [|c r] eqn:Q; [right|left; exists (c :: r); split; auto; split; auto; discriminate].
        intros s (E1 & E2 & _). rewrite E1 in E. destruct s as [|x s]; [congruence|]. destruct s; discriminate E.
      + right. intros s (E1 & _ & _). apply E. rewrite E1 at 2. rewrite removelast_last. auto.
    - right. intros s (E1 & _ & E2). apply F. rewrite E1, removelast_last. auto. }
  destruct b, D as [(s & Ac)|N].
  - rewrite (printable_yes content s a L Ac). eexists. split; [reflexivity|]. destruct Ac as (E & N & F). split.
    + split; [|intros (_ & -> & _); discriminate]. destruct a; [|congruence]. intros _. split; auto. split; auto. exists s. auto.
    + destruct a; [|discriminate]. intros out Q. inversion Q; subst out. exists s, (flat_map esc s).
      split; auto. split; auto. split; [apply unescape_esc; auto|apply esc_printable; auto].
  - rewrite (printable_no content a true L) by auto. eexists. split; [reflexivity|]. split; [|discriminate].
    split; [congruence|]. intros (_ & _ & s & Ac). exfalso. apply (N s). exact Ac.
  - rewrite (printable_no content a false L) by auto. eexists. split; [reflexivity|]. split; [|discriminate]. split; [congruence|intros (Q & _); discriminate].
  - rewrite (printable_no content a false L) by auto. eexists. split; [reflexivity|]. split; [|discriminate]. split; [congruence|intros (Q & _); discriminate].
Qed.

Lemma needed_overflow : forall n alloc, 0 <= alloc -> 2147483647 < alloc + 2 * Z.of_nat n -> needed (repeat 10 n) alloc = IntOverflow.
Proof.
  induction n as [|n IH]; intros alloc Ha H; cbn [repeat needed].
  - replace (2147483647 <? alloc) with true by lia. reflexivity.
  - destruct (2147483647 <? alloc); [reflexivity|]. change (special special_chars 10) with (Some 110). cbn iota. apply IH; lia.
Qed.
Lemma render_overflow : forall n, 2 ^ 30 <= Z.of_nat n -> dprintable_string true (repeat 10 n ++ [0]) true = IntOverflow.
Proof.
  intros n H. change (2 ^ 30) with 1073741824 in H. unfold dprintable_string. cbn [negb]. rewrite app_length, repeat_length. cbn [length].
  replace (_ <? 2) with false by lia. rewrite last_last, removelast_last. cbn [Z.eqb negb]. rewrite needed_overflow by lia. reflexivity.
Qed.
