(** Executable model of the parents of types: pkg/metadb/metadb_builder.go:158-468, 203-287 (the lists Parents of new objects), 852-858, 877-883 (lists joined in
    deduplicateTypes), pkg/metadb/metadb_types.go:26-30 (streamline), modules/metac-reflect-gen/templates/_parents.tpl:1-9, src/entry.c:88-97 (parents of an entry).

    Simplifications (whole file):
    - as in MetadbModel: a debugging entry is its number, a link to a parent (CommonLink.p, always an IndexEntry before streamline) the number of the parent's debugging entry;
      the order of the iteration of a Go map is a list given to the function;
    - entries that came into a namespace or a unit by an ImportedUnit or ImportedModule are left out: the parent of an object is the entry that contains it;
    - a failure of GetCommonType (lines 855, 880) is left out: the objects of entries with the tag of a type are types;
    - an entry of a type of the generated code is the number of the object it was generated from (None: NULL), its id (C66) is left out;
    - metac_num_t is a number without bound. *)
From Coq Require Import ZArith String List Bool.
From Verif Require Import Base MetadbModel.
Import ListNotations.
Open Scope Z_scope.

(** pkg/metadb/metadb_builder.go:835-884: the entry with the same signature found in the round for [i], if there is one *)
Definition found_for (fuel : nat) (graph : nat -> option object) (parent : nat -> nat) (st : index) (i : nat) : option nat :=
  match graph i with
  | None => None
  | Some o =>
    if i_dup st (parent i) then None
    else match signature fuel graph (i_rep st) false i with
         | Ok hs => if o_decl o then find_header hs (i_headers st)
                    else match signature fuel graph (i_rep st) true i with Ok cs => find_sig hs cs (i_sigs st) | _ => None end
         | _ => None
         end
  end.
(** lines 858, 883: fcmnt.Parents = append(fcmnt.Parents, icmnt.Parents...); [ps]: the lists of the objects *)
Definition parents1 (fuel : nat) (graph : nat -> option object) (parent : nat -> nat) (st : index) (ps : nat -> list nat) (i : nat) : nat -> list nat :=
  match found_for fuel graph parent st i with
  | Some f => put ps (i_rep st f) (ps (i_rep st f) ++ ps (i_rep st i))%list
  | None => ps
  end.
(** pkg/metadb/metadb_builder.go:815-910 deduplicateTypes with the lists of parents *)
Fixpoint dedup_parents (fuel : nat) (graph : nat -> option object) (parent : nat -> nat) (st : index) (ps : nat -> list nat) (order : list nat) : out (index * (nat -> list nat)) :=
  match order with
  | [] => Ok (st, ps)
  | i :: r => try st' <- dedup1 fuel graph parent st i; dedup_parents fuel graph parent st' (parents1 fuel graph parent st ps i) r
  end.

(** metadb_types.go:26-30 and _parents.tpl:1-9: .parents of the entry generated for the object [r] of the database, None: there is no such object *)
Definition entry_parents (st : index) (ps : nat -> list nat) (r : nat) : option (list nat) :=
  if existsb (Nat.eqb r) (i_db st) then Some (map (i_rep st) (ps r)) else None.
(** src/entry.c:88-91 metac_entry_parent_count *)
Definition parent_count (e : option (list nat)) : Z := match e with None => 0 | Some l => Z.of_nat (List.length l) end.
(** src/entry.c:93-97 metac_entry_parent_entry *)
Definition parent_entry (e : option (list nat)) (id : Z) : option nat :=
  match e with
  | None => None
  | Some l => if (id <? 0) || (id >=? Z.of_nat (List.length l)) then None else nth_error l (Z.to_nat id)
  end.

(** pkg/metadb/metadb_builder.go:254-262, in the loop over the dimensions from the last one: [lower]: the entry of the dimension before (none in the first round) *)
Fixpoint array_parents_loop (index : nat) (lower : option nat) (ranges : list subrange) : list (nat * list nat) :=
  match ranges with
  | [] => []
  | s :: r =>
    ((match lower with None => [] | Some q => [(q, [match r with [] => index | _ => s_index s end])] end) ++ array_parents_loop index (Some (s_index s)) r)%list
  end.
(** lines 203-287: the parents of the objects of an array, with their numbers; [parent]: the entry with the array in it *)
Definition array_parents (index parent : nat) (children : list subrange) : list (nat * list nat) :=
  (index, [parent]) :: array_parents_loop index None (List.rev children).
