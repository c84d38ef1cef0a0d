(** What the answers to the requests of a program are meant to be, in terms of the scopes of the program. *)
From Coq Require Import ZArith String Ascii List Bool.
From Verif Require Import EntryModel TplModel.
Import ListNotations.
Open Scope string_scope.
Open Scope Z_scope.

(** Characters of C identifiers (with $ and the bytes of extended characters). *)
Definition ident_char (c : ascii) : bool :=
  let n := N_of_ascii c in
  ((48 <=? n) && (n <=? 57) || (65 <=? n) && (n <=? 90) || (97 <=? n) && (n <=? 122) || (n =? 95) || (n =? 36) || (128 <=? n))%N.
Fixpoint every (f : ascii -> bool) (s : string) : bool := match s with EmptyString => true | String c r => f c && every f r end.
Definition ident (s : string) : Prop := every ident_char s = true.
(** File names written in C as they are: no backslash, no double quote. *)
Definition clean_path (s : string) : Prop := every (fun c => negb (Ascii.eqb c "\"%char) && negb (Ascii.eqb c """"%char)) s = true.

(** Every scope of the program: the file scope of each unit, functions, blocks, namespaces, structures. *)
Definition opens (k : kind) : bool := match k with KVariable | KOther => false | _ => true end.
Fixpoint inner_scopes (i : item) : list (list item) :=
  match i with Item k _ _ _ _ sub => if opens k then sub :: flat_map inner_scopes sub else [] end.
Definition scopes (cus : list unit_) : list (list item) := flat_map (fun '(_, h) => h :: flat_map inner_scopes h) cus.

(** Variables and functions. *)
Definition object (i : item) : bool := match i_kind i with KVariable | KSubprogram => true | _ => false end.
(** Where an item is declared. *)
Definition at_file (i : item) : string := match i_file i with Some f => f | None => "" end.
Definition at_line (i : item) : Z := match i_line i with Some l => l | None => -1 end.
Definition named (n : string) (i : item) : bool := match i_name i with Some s => String.eqb s n | None => false end.

(** Input of the generator as compilers and the builder make it: paths with forward slashes, names that are identifiers, one id per object. *)
Definition tidy (cus : list unit_) : Prop :=
  forall h, In h (scopes cus) ->
    NoDup (map i_id (filter object h)) /\
    forall i, In i h -> clean_path (at_file i) /\ forall n, object i = true -> i_name i = Some n -> ident n.

(** The markers of module [m]: variables named metac__<m>_entry_..., with the scope they stand in. *)
Definition marker (m : string) (i : item) : bool :=
  match i_kind i, i_name i with KVariable, Some n => String.prefix ("metac__" ++ m ++ "_entry_") n | _, _ => false end.
Definition markers (cus : list unit_) (m : string) : list (list item * item) :=
  flat_map (fun h => map (pair h) (filter (marker m) h)) (scopes cus).
(** The objects called [name] on the line of the markers called [loc] in [file], in the scopes of those markers. *)
Definition beside (q : item) (name : string) (i : item) : bool :=
  object i && named name i && String.eqb (at_file i) (at_file q) && (at_line i =? at_line q).
Definition declared (cus : list unit_) (m file loc name : string) : list string :=
  flat_map (fun '(h, q) => if String.eqb (at_file q) file && named loc q then map i_id (filter (beside q name) h) else []) (markers cus m).
(** The only element of a list. *)
Definition the_one {A} (l : list A) : option A := match l with [x] => Some x | _ => None end.
(** Modules: "dflt", and those announced by a variable metac__module_<m>. *)
Definition announced (cus : list unit_) (m : string) : Prop :=
  m = "dflt" \/ exists h i, In h (scopes cus) /\ In i h /\ i_kind i = KVariable /\ i_name i = Some ("metac__module_" ++ m).
(** No two markers of one name on one line. *)
Definition markers_apart (cus : list unit_) (m : string) : Prop :=
  NoDup (map (fun '(_, q) => (at_file q, at_line q, i_name q)) (markers cus m)).

(** A variable that links module [m] to the global symbol [name], in a scope of unit [cu]: metac__<m>_gsym_<name>. *)
Definition links (cus : list unit_) (m cu name : string) : Prop :=
  exists top h i, In (cu, top) cus /\ In h (scopes [(cu, top)]) /\ In i h /\ i_kind i = KVariable /\ i_name i = Some ("metac__" ++ m ++ "_gsym_" ++ name).
(** [id] is an object called [name] at the top of unit [cu]. *)
Definition global (cus : list unit_) (cu name id : string) : Prop :=
  exists h i, In (cu, h) cus /\ In i h /\ object i = true /\ i_name i = Some name /\ i_id i = id.
(** The names of the linking variables of module [m] in the whole program. *)
Definition link_names (cus : list unit_) (m : string) : list (option string) :=
  flat_map (fun h => map i_name (filter (fun i => match i_kind i, i_name i with
     KVariable, Some n => String.prefix ("metac__" ++ m ++ "_gsym_") n | _, _ => false end) h)) (scopes cus).
