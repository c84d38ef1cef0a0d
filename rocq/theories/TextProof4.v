(** The text of a value does not depend on the budget of steps. *)
From Coq Require Import ZArith String Ascii List Bool HexString Lia ZifyBool.
From Verif Require Import Base BaseProof EntryModel EntrySpec EntryProof ValueModel ValueSpec ValueProof ValueProof2 DeepModel DeepSpec DeepProof DeepProof2 DeepProof3 DeepProof4 DeepProof5 DeepProof6 CdeclModel TextModel TextSpec TextProof TextProof2.
From Verif Require CdeclSpec.
Import ListNotations.
Open Scope Z_scope.
Local Open Scope string_scope.

Definition approx {A} (x y : res A) : Prop := x = OutOfFuel \/ x = y.
Lemma approx_refl : forall A (x : res A), approx x x.
Proof. intros. right. reflexivity. Qed.
Lemma approx_bind : forall A B (x y : res A) (f g : A -> res B), approx x y -> (forall a, approx (f a) (g a)) -> approx (bind x f) (bind y g).
Proof. intros A B x y f g [-> | ->] H; [left; reflexivity|]. destruct y; cbn; [apply H|right; reflexivity|right; reflexivity|left; reflexivity]. Qed.
Lemma approx_collect : forall A B (f g : A -> res B) l, (forall a, approx (f a) (g a)) -> approx (collect f l) (collect g l).
Proof.
  intros A B f g l H. induction l as [|a l IH]; [apply approx_refl|]. cbn [collect]. apply approx_bind; [apply H|]. intro b.
  apply approx_bind; [exact IH|]. intro bs. apply approx_refl.
Qed.
Ltac ap := repeat first
  [ apply approx_refl
  | match goal with H : forall _, approx _ _ |- _ => apply H end
  | match goal with |- approx (bind _ _) (bind _ _) => apply approx_bind; [|intro] end
  | match goal with |- approx (collect _ _) (collect _ _) => apply approx_collect; intro end
  | match goal with |- approx (match ?x with _ => _ end) (match ?x with _ => _ end) => destruct x end ].
Lemma cdecl_step : forall d k p, approx (cdecl k d p) (cdecl (S k) d p).
Proof.
  intros d. induction k as [|k IH]; intro p; [left; reflexivity|].
  remember (S k) as k' eqn:Q. cbn [cdecl]. rewrite Q at 1. cbn [cdecl]. ap.
Qed.
Lemma approx_le : forall A (f : nat -> res A), (forall k, approx (f k) (f (S k))) -> forall k j, (k <= j)%nat -> approx (f k) (f j).
Proof.
  intros A f H k j L. induction L as [|j L IH]; [apply approx_refl|]. destruct IH as [I|I]; [left; exact I|]. rewrite I. apply H.
Qed.
Lemma approx_returns : forall A (f : nat -> res A) k0 a, (forall k, approx (f k) (f (S k))) -> (forall k, (k0 <= k)%nat -> f k = Ret a) -> CdeclSpec.returns f a.
Proof.
  intros A f k0 a H R. split; [|exists k0; exact R]. intro k. destruct (approx_le _ f H k (Nat.max k k0) ltac:(lia)) as [Q|Q]; [left; exact Q|].
  right. rewrite Q. apply R. lia.
Qed.
Lemma entry_cdecl_step : forall d k p, approx (entry_cdecl k d p) (entry_cdecl (S k) d p).
Proof. intros d k [p|]; [apply cdecl_step|apply approx_refl]. Qed.
Section Step.
Variable E : env.
Variables tagged deep : bool.
Variable float_text : ctype -> Z -> string.
Lemma pointer_end_step : forall k m arr out, approx (pointer_end E k m arr out) (pointer_end E (S k) m arr out).
Proof. intros. unfold pointer_end. pose proof (entry_cdecl_step (en_db E) k) as C. ap. Qed.
Lemma text_step : forall m k anc v, approx (text E tagged deep float_text k m anc v) (text E tagged deep float_text (S k) m anc v).
Proof.
  intros m. induction k as [|k IH]; intros anc v; [left; reflexivity|]. pose proof (pointer_end_step k m) as P.
  remember (S k) as k' eqn:Q. cbn [text]. rewrite Q at 1. cbn [text]. apply approx_bind; [apply approx_refl|]. intros [ |s|ch|ch|arr]; try apply approx_refl.
  - apply approx_bind; [apply approx_collect; intro; apply IH|]. intro; apply approx_refl.
  - apply approx_bind; [apply approx_collect; intro; apply IH|]. intro; apply approx_refl.
  - apply approx_bind; [apply IH|]. intro; apply P.
Qed.
Lemma text_returns : forall m anc v k0 a, (forall k, (k0 <= k)%nat -> text E tagged deep float_text k m anc v = Ret a) ->
  CdeclSpec.returns (fun k => text E tagged deep float_text k m anc v) a.
Proof. intros. eapply approx_returns; [|eassumption]. intro. apply text_step. Qed.
End Step.
