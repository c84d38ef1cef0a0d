(** What finding and running a module is meant to do. *)
From Coq Require Import ZArith String Ascii List Bool.
From Verif Require Import RunModel.
Import ListNotations.
Open Scope string_scope.

(** A name of one directory: not empty, no separators, not the directory itself or its parent. *)
Definition one_component (n : string) : Prop :=
  n <> "" /\ n <> "." /\ n <> ".." /\ ~ In "/"%char (list_ascii_of_string n) /\ ~ In "\"%char (list_ascii_of_string n).
(** [x] is the first element of [l] with property [P]. *)
Definition first_with {A} (P : A -> Prop) (l : list A) (x : A) : Prop :=
  exists l1 l2, l = (l1 ++ x :: l2)%list /\ P x /\ forall y, In y l1 -> ~ P y.
(** The directory of module [name] below the search path [path]. *)
Definition place (path name : string) : string := path ++ "/" ++ name.
(** The search path holds the module, of a kind whose factory is [f]. *)
Definition holds (header : string -> option string) (kinds : string -> option nat) (name : string) (path : string) (f : nat) : Prop :=
  exists k, header (place path name ++ "/module.yaml") = Some k /\ kinds k = Some f.
