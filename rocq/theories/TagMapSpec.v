(** Specification of tag maps: who answers a lookup, independent of the loops of the model. *)
From Coq Require Import ZArith String List Bool.
From Verif Require Import Base EntryModel EntrySpec TagMapModel.
Import ListNotations.
Open Scope Z_scope.

(** The category bit of an entry; other kinds have none. *)
Inductive bit_of (d : db) (e : eptr) : Z -> Prop :=
| bit_variable t : e_info (deref d e) = IVariable t -> bit_of d e 0
| bit_param u t : e_info (deref d e) = IParam u t -> bit_of d e 1
| bit_member m : e_info (deref d e) = IMember m -> bit_of d e 2.
(** Kinds of entries that are not listed above but carry one of their numbers do not exist in C programs. *)
Definition kind_ok (d : db) (e : eptr) : Prop :=
  forall k, e_info (deref d e) = IOther k -> k <> KND_member /\ k <> KND_variable /\ k <> KND_func_parameter.
(** A category with [mask] is responsible for the entry. *)
Definition admits (d : db) (mask : Z) (e : eptr) : Prop := exists b, bit_of d e b /\ Z.testbit mask b = true.
Definition covers_final (mask : Z) : Prop := Z.testbit mask 3 = true.

(** The binding of an entry: the keys are static entries. *)
Definition bound (l : list (eptr * tag)) (e : eptr) (t : tag) : Prop := exists r, e = St r /\ In (e, t) l.
Definition unbound (l : list (eptr * tag)) (e : eptr) : Prop := forall t, ~ bound l e t.
(** No key twice, no run-time entries as keys (they cannot be found again). *)
Definition map_ok (l : list (eptr * tag)) : Prop := NoDup (map fst l) /\ Forall (fun b => exists r, fst b = St r) l.

(** [own_tag d mask l e t]: the category supplies [t]: for the entry itself or else for its final type. *)
Definition own_tag (d : db) (mask : Z) (l : list (eptr * tag)) (e : eptr) (t : tag) : Prop :=
  bound l e t \/ (unbound l e /\ covers_final mask /\ exists f, final_type d (Some e) (Some f) /\ bound l f t).

(** [answer d m e o]: the lookup for [e] in [m] yields [o]. The categories are asked in order; a category that
    is not responsible or has nothing passes; in the end the default. *)
Inductive answer (d : db) (e : eptr) : tmap -> option tag -> Prop :=
| ans_default df : answer d e (TMap [] df) df
| ans_skip_ext mask x r df o : ~ admits d mask e -> answer d e (TMap r df) o -> answer d e (TMap (Ext mask x :: r) df) o
| ans_skip_own mask l r df o : ~ admits d mask e -> answer d e (TMap r df) o -> answer d e (TMap (Own mask l :: r) df) o
| ans_ext mask x r df t : admits d mask e -> answer d e x (Some t) -> answer d e (TMap (Ext mask x :: r) df) (Some t)
| ans_ext_none mask x r df o : admits d mask e -> answer d e x None -> answer d e (TMap r df) o ->
    answer d e (TMap (Ext mask x :: r) df) o
| ans_own mask l r df t : admits d mask e -> own_tag d mask l e t -> answer d e (TMap (Own mask l :: r) df) (Some t)
| ans_own_none mask l r df o : admits d mask e -> (forall t, ~ own_tag d mask l e t) -> answer d e (TMap r df) o ->
    answer d e (TMap (Own mask l :: r) df) o.

Fixpoint wf (m : tmap) : Prop :=
  match m with TMap cats _ =>
    (fix go (l : list cat) : Prop := match l with [] => True | Ext _ x :: r => wf x /\ go r | Own _ b :: r => map_ok b /\ go r end) cats
  end.
(** No category refers to an external map. *)
Definition own_only (m : tmap) : Prop := match m with TMap cats _ => Forall (fun c => exists mask l, c = Own mask l) cats end.

Definition cat_at (m : tmap) (i : nat) : option cat := match m with TMap cats _ => nth_error cats i end.
Definition default_of (m : tmap) : option tag := match m with TMap _ df => df end.

(** the contexts a call hands over to the map if it succeeds *)
Definition given (t : tag) : list Z := if Z.eqb (t_context t) 0 then [] else if t_free t then [t_context t] else [].
(** the calls that stored something *)
Fixpoint taken (l : list call) (ss : list Z) : list Z :=
  match l, ss with
  | c :: r, s :: q =>
      (if (s =? 0) && ((k_op c =? 1) || (k_op c =? 2)) then match k_tag c with Some t => given t | None => [] end else []) ++ taken r q
  | _, _ => []
  end.

(** the entry a call is about: the given one (operation 1) or its final type (operation 2) *)
Definition target (d : db) (c : call) (r : ref) : Prop :=
  match k_entry c with Some (St e) => (k_op c = 1 /\ r = e) \/ (k_op c = 2 /\ final_type d (Some (St e)) (Some (St r))) | _ => False end.
(** the calls are about entries of the database, not about entries made at run time *)
Definition static_calls (l : list call) : Prop := Forall (fun c => forall e, k_entry c = Some e -> exists r, e = St r) l.
