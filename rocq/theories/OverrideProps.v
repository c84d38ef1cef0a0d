(** Property C65: what the settings of a module run are after all overrides. *)
From Coq Require Import ZArith String List Bool.
From Verif Require Import Base OverrideModel OverrideSpec OverrideProof.
Import ListNotations.
Open Scope string_scope.

(** C65. The settings after all overrides: a leaf (scalar, array or null) is found at a path exactly if one of the settings — the first ones or an override — has it there
    and all later overrides are silent about the path; a map exactly if one of them has a map there and no later one has a leaf there or on the way.
    A run fails only for an override that cannot be parsed, and panics only for one that is null as a whole. *)
Theorem C65_settings_partial : forall parse, (forall o t, parse o = Parsed (Some t) -> proper (Table t)) -> forall os lo, proper (Table lo) ->
  match merge_all parse lo os with
  | Failed => exists o, In o os /\ parse o = Bad
  | Panic => exists o, In o os /\ parse o = Parsed None
  | Merged r => exists ts, map parse os = map Parsed ts /\ proper (Table r) /\
      (forall p x, leaf_at (Table r) p x <-> exists before t after, Some lo :: ts = (before ++ t :: after)%list /\ leaf_at (tree_of t) p x /\ Forall (fun u => silent (tree_of u) p) after) /\
      (forall p, table_at (Table r) p <-> exists before t after, Some lo :: ts = (before ++ t :: after)%list /\ table_at (tree_of t) p /\ Forall (fun u => open_to (tree_of u) p) after)
  end.
Proof. exact all_ok. Qed.
Print Assumptions C65_settings_partial.

(** C65. The order in which the keys of the maps are visited makes no difference. *)
Theorem C65_order : forall lo hi lo' hi', proper (Table lo) -> proper (Table lo') -> alike (Table lo) (Table lo') -> alike (Table hi) (Table hi') ->
  alike (Table (merge lo hi)) (Table (merge lo' hi')).
Proof. exact merge_alike. Qed.
Print Assumptions C65_order.

Ltac show_proper := repeat match goal with
  | |- proper (Leaf _) => apply pr_leaf
  | |- proper (Table _) => apply pr_table
  | |- NoDup (map fst _) => cbn
  | |- NoDup _ => constructor
  | |- ~ In _ _ => let X := fresh in intros X; cbn in X; repeat (destruct X as [X|X]; [discriminate X|]); exact X
  | |- forall k t, In (k, t) _ -> proper t => let X := fresh in intros ? ? X; cbn in X; repeat (destruct X as [X|X]; [injection X as <- <-|]); [..|destruct X]
  end.
Definition num (x : Z) : tree := Leaf (LData x).
(** mixins: {a: 1, opt: {x: 1, y: [..]}}, then {opt: {y: null}, b: 2}, then {opt: {x: 7}, a: {z: 3}} *)
Definition base0 : table := [("a", num 1); ("opt", Table [("x", num 1); ("y", num 5)])].
Definition over1 : table := [("opt", Table [("y", Leaf LNull)]); ("b", num 2)].
Definition over2 : table := [("opt", Table [("x", num 7)]); ("a", Table [("z", num 3)])].
Definition parse0 (s : string) : parsed := if s =? "1" then Parsed (Some over1) else if s =? "2" then Parsed (Some over2) else if s =? "null" then Parsed None else Bad.
Lemma parse0_proper : forall o t, parse0 o = Parsed (Some t) -> proper (Table t).
Proof.
  intros o t. unfold parse0, over1, over2. destruct (o =? "1"); [|destruct (o =? "2"); [|destruct (o =? "null"); discriminate]]; intros X; injection X as <-.
  all: show_proper; unfold num; show_proper.
Qed.
Lemma base0_proper : proper (Table base0).
Proof. unfold base0, num. show_proper. Qed.
Example C65_ex : merge_all parse0 base0 ["1"; "2"] = Merged [("opt", Table [("x", num 7); ("y", Leaf LNull)]); ("a", Table [("z", num 3)]); ("b", num 2)]
  /\ merge_all parse0 base0 ["2"; "1"] = Merged [("opt", Table [("y", Leaf LNull); ("x", num 7)]); ("b", num 2); ("a", Table [("z", num 3)])]
  /\ merge_all parse0 base0 ["1"; "?"] = Failed
  /\ (forall o t, parse0 o = Parsed (Some t) -> proper (Table t)) /\ proper (Table base0).
Proof. repeat split; try reflexivity; [exact parse0_proper|exact base0_proper]. Qed.
Example C65_order_ex : proper (Table base0) /\ proper (Table (rev base0)) /\ alike (Table base0) (Table (rev base0)) /\ base0 <> rev base0.
Proof.
  assert (H : forall p, lookup (Table base0) p = lookup (Table (rev base0)) p \/ p = []).
  { intros [|k p]; [auto|left]. unfold base0. cbn [rev app]. rewrite !lookup_cons. cbn [get]. destruct ("a" =? k) eqn:E1; destruct ("opt" =? k) eqn:E2; try reflexivity. apply String.eqb_eq in E1. subst. discriminate. }
  split; [exact base0_proper|]. split; [unfold base0, num; cbn [rev app]; show_proper|]. split; [|discriminate].
  intros p. unfold leaf_at, table_at. destruct (H p) as [-> | ->]; [split; [intros x|]; reflexivity|]. split; [intros x; cbn; split; discriminate|]. cbn. split; intros _; eexists; reflexivity.
Qed.
(** the general statement (an override that is a valid document never stops the run) is false: null as an override panics *)
Theorem C65_null_refuted : exists parse lo o, merge_all parse lo [o] = Panic /\ parse o <> Bad /\ proper (Table lo).
Proof. exists parse0, base0, "null". split; [reflexivity|]. split; [discriminate|exact base0_proper]. Qed.
Print Assumptions C65_null_refuted.
(** overrides cannot be combined beforehand: a leaf between two maps hides the first map *)
Theorem C65_grouping_refuted : exists a b c, proper (Table a) /\ proper (Table b) /\ proper (Table c) /\ ~ alike (Table (merge (merge a b) c)) (Table (merge a (merge b c))).
Proof.
  exists [("k", Table [("x", num 1)])], [("k", num 5)], [("k", Table [("y", num 2)])].
  split; [|split; [|split]]. 1-3: unfold num; show_proper.
  intros A. destruct (A ["k"; "x"]) as [B _]. specialize (B (LData 1)). destruct B as [_ B]. specialize (B eq_refl). discriminate.
Qed.
Print Assumptions C65_grouping_refuted.
