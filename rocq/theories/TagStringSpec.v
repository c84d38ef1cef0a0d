(** What a tag string is: pairs key:"value", separated by any number of spaces, possibly mixed with
    words that are not pairs (each ended by a space). *)
From Coq Require Import ZArith List Bool.
Import ListNotations.
Open Scope Z_scope.

(** One character of a value as written: a plain one, or a backslash and any character. *)
Inductive vch := Plain (c : Z) | Esc (c : Z).
Definition wf_vch (x : vch) : Prop := match x with Plain c => c <> 34 /\ c <> 92 | Esc _ => True end.
Definition vch_text (x : vch) : list Z := match x with Plain c => [c] | Esc c => [92; c] end.
Definition value_text (v : list vch) : list Z := flat_map vch_text v.

Inductive piece :=
| Pair (k : list Z) (v : list vch)          (* k:"v" *)
| Spaces (n : nat)
| Word (w : list Z)                          (* w and a space *)
| Bad (k : list Z) (c : Z) (j : list Z).     (* k:cj and a space, c not a quote; c may be a space: the code then skips j, too *)
Definition is_key (k : list Z) : Prop := k <> [] /\ Forall (fun c => c <> 32 /\ c <> 58) k.
Definition wf_piece (p : piece) : Prop :=
  match p with
  | Pair k v => is_key k /\ Forall wf_vch v
  | Spaces _ => True
  | Word w => is_key w
  | Bad k c j => is_key k /\ c <> 34 /\ Forall (fun x => x <> 32) j
  end.
Definition piece_text (p : piece) : list Z :=
  match p with
  | Pair k v => k ++ [58; 34] ++ value_text v ++ [34]
  | Spaces n => repeat 32 n
  | Word w => w ++ [32]
  | Bad k c j => k ++ [58; c] ++ j ++ [32]
  end.
Definition tag_text (ps : list piece) : list Z := flat_map piece_text ps.

(** The value of the first pair with that key. *)
Fixpoint first_value (ps : list piece) (key : list Z) : option (list Z) :=
  match ps with
  | [] => None
  | Pair k v :: r => if list_eq_dec Z.eq_dec k key then Some (value_text v) else first_value r key
  | _ :: r => first_value r key
  end.

(** Where a key may start: at the beginning, behind a space or behind a closing quote. *)
Definition starts (a : list Z) : Prop := a = [] \/ exists b c, a = b ++ [c] /\ (c = 32 \/ c = 34).
