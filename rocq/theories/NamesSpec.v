(** What the database of names and the list of tests are meant to hold. *)
From Coq Require Import ZArith String Ascii List Bool.
From Verif Require Import EntryModel TplModel TplSpec NamesModel.
Import ListNotations.
Open Scope string_scope.
Open Scope Z_scope.

(** Names C prints as they are: no quotes, backslashes, control characters, and none of the characters JSON writes as \u. *)
Definition plain_name (s : string) : Prop :=
  every (fun c => (32 <=? N_of_ascii c)%N && negb (existsb (Ascii.eqb c) [""""%char; "\"%char; "<"%char; ">"%char; "&"%char])) s = true.
(** The objects of one kind called [n], in order; an object without name counts as called "". *)
Definition called (n : string) (l : list thing) : list string :=
  map fst (filter (fun t => String.eqb n (match snd t with Some s => s | None => "" end)) l).

(** The variables at the top of the units by which METAC_START_TEST announces tests. *)
Definition test_variable (i : item) : bool :=
  match i_kind i, i_name i with KVariable, Some n => String.prefix "metac__test_" n | _, _ => false end.
Definition name_of (i : item) : string := match i_name i with Some n => n | None => "" end.
Definition test_variables (cus : list unit_) : list string :=
  map name_of (filter test_variable (flat_map snd cus)).
