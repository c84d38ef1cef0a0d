(** Property theorems about tag strings (C15, C16). *)
From Coq Require Import ZArith List Bool Lia.
Import ListNotations.
From Verif Require Import TagStringModel TagStringSpec TagStringProof.
Open Scope Z_scope.

(** C15: the first pair with the key, for every tag string made of pairs, spaces and other words. *)
Theorem C15_first_match : forall ps key, Forall wf_piece ps ->
  lookup (tag_text ps) key = match first_value ps key with Some v => Found v | None => Null end.
Proof. exact lookup_pieces. Qed.
Print Assumptions C15_first_match.

(** C16: on any text the lookup stays inside it, and whatever it returns is the text between the quotes
    behind the key and a colon, with the key at the start of a word. *)
Theorem C16_safe_on_any_text : forall t key, lookup t key = Null \/
  exists v a v' r, lookup t key = Found v /\ t = a ++ key ++ [58; 34] ++ v ++ [34] ++ r /\ starts a /\
    key <> [] /\ ~ In 32 key /\ Forall wf_vch v' /\ v = value_text v'.
Proof. exact lookup_good. Qed.
Print Assumptions C16_safe_on_any_text.

(** The keys js, db, x, x (the value of js holds an escaped quote), a bad word b:x and a word w between. *)
Definition ex_ps : list piece :=
  [Pair [106; 115] [Plain 110; Esc 34; Plain 109]; Spaces 1; Bad [98] 120 []; Word [119]; Spaces 2; Pair [100; 98] [Plain 105]; Pair [120] [Plain 49]; Pair [120] []].
Example ex_ps_wf : Forall wf_piece ex_ps.
Proof.
  unfold ex_ps. repeat apply Forall_cons; try apply Forall_nil; cbn; unfold is_key; repeat split; try discriminate;
  repeat (apply Forall_cons; [cbn; lia|]); try apply Forall_nil; try (repeat constructor; cbn; lia); lia.
Qed.
Example ex_lookup : lookup (tag_text ex_ps) [106; 115] = Found [110; 92; 34; 109] /\ lookup (tag_text ex_ps) [120] = Found [49] /\
  lookup (tag_text ex_ps) [98] = Null /\ lookup (tag_text ex_ps) [] = Null.
Proof. vm_compute. auto. Qed.
(** Malformed text: a colon followed by a space loses the next pair, an unterminated value is ignored. *)
Example ex_malformed : lookup [97; 58; 32; 98; 58; 34; 120; 34] [98] = Null /\ lookup [97; 58; 34; 120] [97] = Null.
Proof. vm_compute. auto. Qed.
