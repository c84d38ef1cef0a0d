(** Merging of types (C67): texts. *)
From Coq Require Import ZArith String Ascii List Bool Lia Decimal DecimalString DecimalZ.
From Verif Require Import Base MetadbModel MetadbSpec.
Import ListNotations.
Open Scope string_scope.

(** * Strings *)
Lemma sapp_assoc : forall a b c : string, (a ++ b) ++ c = a ++ b ++ c.
Proof. intros a. induction a as [|x a IH]; intros b c; cbn; [reflexivity|]. rewrite IH. reflexivity. Qed.
Lemma sapp_nil : forall a : string, a ++ "" = a.
Proof. intros a. induction a as [|x a IH]; cbn; [reflexivity|]. rewrite IH. reflexivity. Qed.
Lemma sapp_head : forall a b c : string, a ++ b = a ++ c -> b = c.
Proof. intros a. induction a as [|x a IH]; cbn; intros b c H; [assumption|]. injection H as H. auto. Qed.
Lemma slen_app : forall a b : string, String.length (a ++ b) = (String.length a + String.length b)%nat.
Proof. intros a. induction a as [|x a IH]; intros b; cbn; [reflexivity|]. rewrite IH. reflexivity. Qed.
(** the character is not in the string *)
Fixpoint no (c : ascii) (s : string) : bool := match s with "" => true | String x r => negb (Ascii.eqb x c) && no c r end.
Lemma no_app : forall c a b, no c (a ++ b) = no c a && no c b.
Proof. intros c a. induction a as [|x a IH]; intros b; cbn; [reflexivity|]. rewrite IH, andb_assoc. reflexivity. Qed.
Lemma split_at : forall c a b r s, no c a = true -> no c b = true -> a ++ String c r = b ++ String c s -> a = b /\ r = s.
Proof.
  intros c a. induction a as [|x a IH]; intros b r s A B E; destruct b as [|y b]; cbn in *.
  - injection E as ->. auto.
  - injection E as -> _. rewrite Ascii.eqb_refl in B. discriminate.
  - injection E as <- _. rewrite Ascii.eqb_refl in A. discriminate.
  - apply andb_true_iff in A, B. injection E as <- E. destruct (IH b r s (proj2 A) (proj2 B) E) as [-> ->]. auto.
Qed.
(** the depth of brackets after [s], None: a bracket is closed that was not opened *)
Fixpoint depth (n : nat) (s : string) : option nat :=
  match s with
  | "" => Some n
  | String c r => if Ascii.eqb c "(" then depth (S n) r else if Ascii.eqb c ")" then match n with O => None | S m => depth m r end else depth n r
  end.
Definition even (s : string) : Prop := forall n, depth n s = Some n.
Lemma depth_app : forall a n b, depth n (a ++ b) = match depth n a with Some m => depth m b | None => None end.
Proof.
  intros a. induction a as [|c a IH]; intros n b; cbn; [reflexivity|]. destruct (Ascii.eqb c "("); [apply IH|]. destruct (Ascii.eqb c ")"); [|apply IH]. destruct n; [reflexivity|apply IH].
Qed.
Lemma even_app : forall a b, even a -> even b -> even (a ++ b).
Proof. intros a b A B n. rewrite depth_app, A. apply B. Qed.
Lemma even_plain : forall s, no "(" s = true -> no ")" s = true -> even s.
Proof.
  intros s. induction s as [|c s IH]; intros A B n; cbn in *; [reflexivity|]. apply andb_true_iff in A, B. destruct A as [A1 A2], B as [B1 B2]. apply negb_true_iff in A1, B1. rewrite A1, B1. apply IH; assumption.
Qed.
Lemma even_brackets : forall s, even s -> even ("(" ++ s ++ ")").
Proof. intros s E n. cbn. rewrite depth_app, E. reflexivity. Qed.
Lemma split_even : forall x y r s, even x -> even y -> x ++ String ")" r = y ++ String ")" s -> x = y /\ r = s.
Proof.
  assert (H : forall x n y r s, depth n x = Some O -> depth n y = Some O -> x ++ String ")" r = y ++ String ")" s -> x = y /\ r = s).
  { intros x. induction x as [|c x IH]; intros n y r s X Y E; destruct y as [|d y].
    - injection E as ->. auto.
    - cbn in X. injection X as ->. cbn in E. injection E as <- E. discriminate.
    - cbn in Y. injection Y as ->. cbn in E. injection E as -> E. discriminate.
    - cbn in E. injection E as <- E. cbn in X, Y. assert (G : x = y /\ r = s); [|destruct G as [-> ->]; auto].
      destruct (Ascii.eqb c "("); [exact (IH _ _ _ _ X Y E)|]. destruct (Ascii.eqb c ")"); [destruct n; [discriminate|exact (IH _ _ _ _ X Y E)]|exact (IH _ _ _ _ X Y E)]. }
  intros x y r s X Y. apply (H x O y); auto.
Qed.

(** * Numbers and names *)
Lemma dec_inj : forall x y, dec x = dec y -> x = y.
Proof.
  intros x y E. unfold dec in E.
  assert (N : forall z, Z.to_int z <> Decimal.Pos Decimal.Nil /\ Z.to_int z <> Decimal.Neg Decimal.Nil).
  { intros z. destruct z as [|p|p]; cbn; split; try discriminate; intros X; injection X as X; exact (DecimalPos.Unsigned.to_uint_nonnil p X). }
  assert (K : Some (Z.to_int x) = Some (Z.to_int y)).
  { destruct (N x) as [A B], (N y) as [C D]. rewrite <- (NilZero.isi (Z.to_int x) A B), <- (NilZero.isi (Z.to_int y) C D), E. reflexivity. }
  injection K as K. rewrite <- (DecimalZ.of_to x), <- (DecimalZ.of_to y), K. reflexivity.
Qed.
Lemma not_in : forall c l, existsb (Ascii.eqb c) l = false -> forall d, In d l -> Ascii.eqb d c = false.
Proof.
  intros c l H d I. apply Ascii.eqb_neq. intros ->. assert (X : existsb (Ascii.eqb c) l = true) by (apply existsb_exists; exists c; split; [assumption|apply Ascii.eqb_refl]). congruence.
Qed.
Lemma no_cons : forall c x s, no c (String x s) = negb (Ascii.eqb x c) && no c s.
Proof. reflexivity. Qed.
Lemma uint_no : forall c u, existsb (Ascii.eqb c) ["0"; "1"; "2"; "3"; "4"; "5"; "6"; "7"; "8"; "9"]%char = false -> no c (NilEmpty.string_of_uint u) = true.
Proof.
  intros c u H. pose proof (not_in _ _ H) as K. clear H.
  induction u; cbn [NilEmpty.string_of_uint]; [reflexivity|..]; rewrite no_cons, IHu, K; (reflexivity || (cbn [In]; tauto)).
Qed.
Lemma dec_no : forall c v, existsb (Ascii.eqb c) ["0"; "1"; "2"; "3"; "4"; "5"; "6"; "7"; "8"; "9"; "-"]%char = false -> no c (dec v) = true.
Proof.
  intros c v H. pose proof (not_in _ _ H) as K. unfold dec. assert (U : forall u, no c (NilZero.string_of_uint u) = true).
  { intros u. assert (X : no c (NilEmpty.string_of_uint u) = true).
    { apply uint_no. clear H. match goal with |- ?x = false => destruct x eqn:E end; [|reflexivity]. apply existsb_exists in E. destruct E as [d [I E]]. rewrite Ascii.eqb_sym, (K d) in E; [discriminate|]. cbn [In] in *. tauto. }
    unfold NilZero.string_of_uint. destruct u; try assumption. change "0" with (String "0" ""). rewrite no_cons, K; [reflexivity|cbn [In]; tauto]. }
  destruct (Z.to_int v) as [u|u]; cbn [NilZero.string_of_int]; [apply U|]. rewrite no_cons, U, K; [reflexivity|cbn [In]; tauto].
Qed.
Lemma tidy_no : forall c s, special c = true -> Forall (fun c => special c = false) (list_ascii_of_string s) -> no c s = true.
Proof.
  intros c s C. induction s as [|x s IH]; intros F; cbn in *; [reflexivity|]. inversion F as [|? ? F1 F2]; subst. rewrite (IH F2), andb_true_r. apply negb_true_iff. apply Ascii.eqb_neq. intros ->. congruence.
Qed.
Definition plain (s : string) : Prop := forall c, special c = true -> no c s = true.
Lemma dec_plain : forall v, plain (dec v).
Proof.
  intros v c H. apply dec_no. unfold special in H. apply existsb_exists in H. destruct H as [d [I E]]. apply Ascii.eqb_eq in E. subst c. cbn in I. repeat (destruct I as [<-|I]; [reflexivity|]). destruct I.
Qed.
Lemma tidy_plain : forall s, tidy s -> plain s.
Proof. intros s [_ F] c C. apply tidy_no; assumption. Qed.
Lemma plain_even : forall s, plain s -> even s.
Proof. intros s P. apply even_plain; apply P; reflexivity. Qed.
Lemma plain_comma : forall a b r s, plain a -> plain b -> a ++ "," ++ r = b ++ "," ++ s -> a = b /\ r = s.
Proof. intros a b r s A B E. apply (split_at "," a b r s); [apply A; reflexivity|apply B; reflexivity|exact E]. Qed.
