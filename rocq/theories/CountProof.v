(** Proofs about pointers and arrays seen as arrays of a given length. *)
From Coq Require Import ZArith String List Bool Lia.
From Verif Require Import Base BaseProof EntryModel EntrySpec EntryProof ValueModel ValueSpec ValueProof ValueProof2 DeepSpec HandlerSpec HandlerProof CountSpec.
Import ListNotations.
Open Scope Z_scope.

Lemma counted_begins : forall d m v c w, counted d m v c w <-> exists t p, begins d m v t p /\ p <> 0 /\ w = array_at t c p.
Proof.
  intros d m v c w. split.
  - intros [t p P NZ|t c' I NZ].
    + exists t, p. split; [left; exact P|auto].
    + exists t, (v_addr v). split; [|auto]. right. split; [|reflexivity]. exists c'. exact I.
  - intros (t & p & [P|((c' & I) & ->)] & NZ & ->).
    + apply ct_pointer; auto.
    + apply ct_array with (c' := c'); auto.
Qed.
Lemma made_sound : forall k d m v c a w, new_element_count_value k d m v c a = Ret (Some w) ->
  a = true /\ exists t p, begins d m v t p /\ p <> 0 /\ w = array_at t c p.
Proof.
  intros k d m v c a w H. split.
  - destruct a; [reflexivity|]. exfalso. unfold new_element_count_value in H.
    destruct (final_if k d (Some (v_entry v)) _) as [[e|]| | |]; try discriminate; cbn [bind] in H.
    destruct (_ && _); [discriminate|]. destruct (new_element_count_entry k d (Some (v_entry v)) c false) as [[p|]| | |]; try discriminate; cbn [bind] in H.
    injection H as H. unfold new_value in H. destruct (_ =? 0) in H; discriminate.
  - apply counted_begins. eapply element_count_sound; eauto.
Qed.
Lemma made_complete : forall n d m v c t p, acyclic d n -> begins d m v t p -> p <> 0 ->
  new_element_count_value (n + 3) d m v c true = Ret (Some (array_at t c p)).
Proof. intros n d m v c t p A B NZ. apply counted_value; auto. apply counted_begins. eauto. Qed.
Lemma made_null : forall n d m v c a, acyclic d n -> (forall t p, begins d m v t p -> p = 0) ->
  new_element_count_value (n + 3) d m v c a = Ret None.
Proof.
  intros n d m v c a A N. destruct (element_count_total n d A m v c a) as (x & X). rewrite X. destruct x as [w|]; [|reflexivity].
  destruct (made_sound _ _ _ _ _ _ _ X) as (_ & t & p & B & NZ & _). destruct (NZ (N _ _ B)).
Qed.
Lemma array_at_type : forall d t c p, array_type d (array_at t c p) t c.
Proof. intros. exists (Dy (Build_entry None false (IArray (Some t) c))). split; [|reflexivity]. exists []. apply res_stop. intros u q K. inversion K. Qed.
Lemma made_element : forall n k d m v c a w i a' x t p z, new_element_count_value k d m v c a = Ret (Some w) ->
  begins d m v t p -> has_size d (Some (St t)) z -> 0 <= z -> - 2147483648 <= c -> 0 < p -> p + c * z <= 2 ^ 64 - 1 ->
  new_value_by_element_id n d w i a' = Ret (Some x) -> 0 <= i < c /\ v_entry x = St t /\ v_addr x = p + i * z.
Proof.
  intros n k d m v c a w i a' x t p z H B Hz Z0 C P L E. destruct (made_sound _ _ _ _ _ _ _ H) as (_ & t' & p' & B' & _ & ->).
  assert (X : t' = t /\ p' = p).
  { destruct B as [((e & F & I) & Q)|((c1 & e & F & I) & Q)], B' as [((e' & F' & I') & Q')|((c2 & e' & F' & I') & Q')];
      pose proof (final_type_fun _ _ _ _ F F') as Y; injection Y as <-; rewrite I in I'; try discriminate; split; congruence. }
  destruct X as (-> & ->). apply (element_place _ _ _ _ _ _ _ _ _ E (array_at_type d t c p) Hz); auto.
Qed.
Lemma made_element_exists : forall n d m v c t p z i, acyclic d n -> begins d m v t p -> p <> 0 -> has_size d (Some (St t)) z ->
  0 <= z -> 0 <= i < c -> c <= 2147483647 -> 0 < p -> p + c * z <= 2 ^ 64 - 1 ->
  exists w, new_element_count_value (n + 3) d m v c true = Ret (Some w) /\
            new_value_by_element_id (n + 3) d w i true = Ret (Some (Build_value (St t) (p + i * z))).
Proof.
  intros n d m v c t p z i A B NZ Hz Z0 I C P L. exists (array_at t c p). split; [apply made_complete; auto|].
  assert (R : 0 <= p + z * i < 2 ^ 64) by nia.
  assert (U : uwrap 64 (v_addr (array_at t c p) + z * i) = p + i * z).
  { cbn [array_at v_addr]. unfold uwrap. rewrite Z.mod_small by lia. lia. }
  rewrite <- U. apply (element_complete d n (array_at t c p) i t c z A (array_at_type d t c p)); auto. rewrite U. lia.
Qed.
