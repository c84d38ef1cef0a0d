(** Properties of the database of types made by the generator: merging of types (C67), ids (C66), arrays (C68). *)
From Coq Require Import ZArith String Ascii List Bool Lia.
From Verif Require Import Base MetadbModel MetadbSpec MetadbProof5 MetadbProof6.
Import ListNotations.
Open Scope string_scope.

(** * Examples of graphs *)
Definition def (n : option string) (size : option Z) (b : body) : object := {| o_name := n; o_decl := false; o_size := size; o_align := None; o_body := b |}.
Definition declared (n : string) (b : body) : object := {| o_name := Some n; o_decl := true; o_size := None; o_align := None; o_body := b |}.
Definition mem (n : string) (t : nat) (at_ : Z) : field := {| f_name := Some n; f_type := Some t; f_size := None; f_align := None; f_byte := at_; f_databit := None; f_bit := None; f_bits := None |}.
Definition top (_ : nat) : nat := 0%nat.

(** ** Two units with the same header:
      struct node { int v; struct node *next; }; union { int x; } *u; and in the second one a struct that is only declared *)
Definition unit_of (k : nat) : list (nat * object) :=
  [(k + 1, def (Some "int") (Some 4%Z) (BaseType "signed"));
   (k + 2, def (Some "node") (Some 16%Z) (Struct StructType [mem "v" (k + 1) 0; mem "next" (k + 3) 8] []));
   (k + 3, def None (Some 8%Z) (Pointer (Some (k + 2))));
   (k + 4, def None (Some 4%Z) (Struct UnionType [mem "x" (k + 1) 0] []));
   (k + 5, def None (Some 8%Z) (Pointer (Some (k + 4))))]%nat.
Definition two_units : list (nat * object) := (unit_of 0 ++ unit_of 10 ++ [(16, declared "other" (Struct StructType [] [])); (17, def None (Some 8%Z) (Pointer (Some 16)))]%nat)%list.
Definition two_rank (i : nat) : nat := match i with 3 | 13 => 1 | 4 | 14 => 1 | 5 | 15 => 2 | 17 => 1 | _ => 0 end%nat.
Lemma two_ok : graph_ok (stored two_units).
Proof. apply (check_graph two_units two_rank); vm_compute; reflexivity. Qed.
Definition two_order : list nat := [13; 2; 5; 1; 17; 12; 4; 15; 3; 14; 11; 16]%nat.

(** * C67: merging of types of all units *)
(** C67: whatever the order in which Go's map is iterated, with all types given by a compiler ([graph_ok]), every type is represented in the database by
    an object of the same kind and name, and - for definitions - of the same size, members, offsets, elements and parameters, the types referred to being the same by kind and name
    (without a name: by what they are made of). A type nested in a removed one is left alone. The database has no object twice and no two objects which are alike.
    Partial: "the same" is by name here; C67_meaning has the types referred to in full, under the one definition rule. *)
Theorem C67_merged_partial : forall G parent, graph_ok G -> forall fuel order st, NoDup order -> dedup fuel G parent index0 order = Ok st ->
  (forall i a, In i order -> G i = Some a ->
     i_rep st i = i /\ i_dup st (parent i) = true \/
     In (i_rep st i) (i_db st) /\ exists b, G (i_rep st i) = Some b /\ o_decl b = o_decl a /\ o_name b = o_name a /\ same_kind (o_body a) (o_body b) /\ (o_decl a = false -> alike (same_text G) a b)) /\
  (forall r, In r (i_db st) -> In r order /\ i_rep st r = r /\ i_dup st r = false /\ G r <> None) /\
  NoDup (i_db st) /\
  (forall r q a b, In r (i_db st) -> In q (i_db st) -> r <> q -> G r = Some a -> G q = Some b -> o_decl a = o_decl b -> o_name a = o_name b -> same_kind (o_body a) (o_body b) ->
     o_decl a = false /\ ~ alike (same_text G) a b) /\
  (forall i, i_dup st i = true -> G i <> None).
Proof. exact dedup_ok. Qed.
Print Assumptions C67_merged_partial.

(** C67: the merging ends without a failure *)
Theorem C67_ends : forall G parent, graph_ok G -> forall order, NoDup order -> exists fuel st, dedup fuel G parent index0 order = Ok st.
Proof. exact dedup_goes. Qed.
Print Assumptions C67_ends.

(** C67: if each name has one definition in the program and a nested type is used only by the type it is nested in, then the database means the same as the debugging data:
    from any type of a unit and its representative, all ways along members, elements, parameters and pointers meet types of the same kind, name, size and layout
    (where one of the two is a declaration only: of the same kind and name). In particular no link of the database leads out of it. *)
Theorem C67_meaning_partial : forall G parent, graph_ok G -> one_definition G -> nested_alone G parent ->
  forall fuel order st, NoDup order -> (forall i, G i <> None -> In i order) -> dedup fuel G parent index0 order = Ok st ->
  forall i, G i <> None -> i_dup st (parent i) = false \/ In (i_rep st i) (i_db st) -> agree G (db_graph G st) i (i_rep st i).
Proof. intros G parent GO One Nest fuel order st. exact (dedup_agrees G parent GO fuel order st One Nest). Qed.
Print Assumptions C67_meaning_partial.


(** the conditions hold for the two units, and 13 (a pointer) is the one in the database for 3 *)
Definition two_pairs : list (nat * nat) := (flat_map (fun i => [(i, i); (i, i + 10); (i + 10, i); (i + 10, i + 10)]) [1; 2; 3; 4; 5] ++ [(16, 16); (17, 17)])%list%nat.
Definition two_same (i j : nat) : Prop := existsb (fun '(x, y) => Nat.eqb x i && Nat.eqb y j) two_pairs = true.
Lemma two_kept : kept (stored two_units) (stored two_units) two_same.
Proof.
  intros i j H. unfold two_same in H. apply existsb_exists in H. destruct H as [[x y] [I E]]. apply andb_true_iff in E. destruct E as [E F]. apply Nat.eqb_eq in E, F. subst x y.
  assert (L : forall x y, two_same x y -> linked two_same (Some x) (Some y)) by (intros; constructor; assumption).
  cbn in I. repeat (destruct I as [I|I]; [injection I as <- <-; eexists _, _; split; [reflexivity|]; split; [reflexivity|]; split; [reflexivity|]; split; [constructor|]; intros D1 D2; try discriminate;
    first [eapply al_base; reflexivity | eapply al_pointer; [reflexivity|reflexivity|apply L; reflexivity]
          | eapply al_struct; [reflexivity|reflexivity|reflexivity|reflexivity|repeat constructor|intros _; constructor]]|]). destruct I.
Qed.
Lemma two_one : one_definition (stored two_units).
Proof.
  intros i j a b n A B Da Db Na Nb K. exists two_same. split; [exact two_kept|]. apply stored_out in A, B. cbn in A, B.
  repeat (destruct A as [A|A]; [injection A as <- <-; try discriminate; repeat (destruct B as [B|B]; [injection B as <- <-; first [reflexivity | discriminate | cbn in *; congruence | inversion K]|]); destruct B|]). destruct A.
Qed.
Lemma two_nested : nested_alone (stored two_units) top.
Proof. intros i o j _ _. left. reflexivity. Qed.
Example C67_ex : exists st, dedup 100 (stored two_units) top index0 two_order = Ok st /\ i_db st = [13; 2; 5; 1; 17; 4; 16]%nat /\ map (i_rep st) [1; 2; 3; 4; 5; 11; 12; 13; 14; 15; 16; 17]%nat = [1; 2; 13; 4; 5; 1; 2; 13; 4; 5; 16; 17]%nat /\
  NoDup two_order /\ (forall i, stored two_units i <> None -> In i two_order) /\ graph_ok (stored two_units) /\ one_definition (stored two_units) /\ nested_alone (stored two_units) top /\
  agree (stored two_units) (db_graph (stored two_units) st) 12 2.
Proof.
  assert (N : NoDup two_order) by (repeat constructor; cbn; lia).
  assert (A : forall i, stored two_units i <> None -> In i two_order).
  { intros i H. destruct (stored two_units i) as [o|] eqn:E; [|destruct H; reflexivity]. apply stored_out in E. cbn in E. repeat (destruct E as [E|E]; [injection E as <- <-; cbn; tauto|]). destruct E. }
  destruct (dedup 100 (stored two_units) top index0 two_order) as [st| | |] eqn:E; [|vm_compute in E; discriminate..]. exists st. split; [reflexivity|].
  pose proof (C67_meaning_partial (stored two_units) top two_ok two_one two_nested 100 two_order st N A E 12%nat ltac:(discriminate)) as M.
  assert (R : i_db st = [13; 2; 5; 1; 17; 4; 16]%nat /\ map (i_rep st) [1; 2; 3; 4; 5; 11; 12; 13; 14; 15; 16; 17]%nat = [1; 2; 13; 4; 5; 1; 2; 13; 4; 5; 16; 17]%nat) by (vm_compute in E; injection E as <-; split; reflexivity).
  destruct R as [R1 R2]. split; [assumption|]. split; [assumption|]. split; [assumption|]. split; [assumption|]. split; [exact two_ok|]. split; [exact two_one|]. split; [exact two_nested|].
  assert (R : i_rep st 12 = 2%nat) by (cbn [map] in R2; congruence). rewrite R in M. apply M. right. rewrite R1. cbn. tauto.
Qed.

(** ** What does not hold *)
(** C67 refuted in general: without the one definition rule (static types of two source files with the same name) a structure is merged with one that has other members:
      a.c: struct B { int v; }; struct A { struct B b; };    b.c: struct B { char v; }; struct A { struct B b; };  (the structures B of the same size)
    The structures A have the same signature: struct A of b.c gets the member of type struct B of a.c. *)
Definition clash : list (nat * object) :=
  [(1, def (Some "int") (Some 4%Z) (BaseType "signed")); (2, def (Some "B") (Some 4%Z) (Struct StructType [mem "v" 1 0] [])); (3, def (Some "A") (Some 4%Z) (Struct StructType [mem "b" 2 0] []));
   (11, def (Some "float") (Some 4%Z) (BaseType "float")); (12, def (Some "B") (Some 4%Z) (Struct StructType [mem "v" 11 0] [])); (13, def (Some "A") (Some 4%Z) (Struct StructType [mem "b" 12 0] []))]%nat.
Lemma first_link : forall Q a b g f fs hs g' f' fs' hs', alike Q a b -> o_body a = Struct g (f :: fs) hs -> o_body b = Struct g' (f' :: fs') hs' -> linked Q (f_type f) (f_type f').
Proof.
  intros Q a b g f fs hs g' f' fs' hs' Al A B. destruct Al as [e X _ _|l X _ _ _|q t u X _ _|t u X _ _|t u X _ _|X _|r t u X _ _|ps t qs u X _ _ _|t u s l c v X _ _|h fs1 hs1 gs1 ks1 X Y _ _ F _]; try congruence.
  rewrite A in X. injection X as <- <- <-. rewrite B in Y. injection Y as <- <- <-. inversion F as [|? ? ? ? [_ L _ _ _ _ _] _]. exact L.
Qed.
Theorem C67_names_refuted : exists G order st, graph_ok G /\ nested_alone G top /\ NoDup order /\ (forall i, G i <> None -> In i order) /\ (forall i o, G i = Some o -> o_decl o = false) /\
  dedup 100 G top index0 order = Ok st /\ exists i, G i <> None /\ ~ agree G (db_graph G st) i (i_rep st i).
Proof.
  exists (stored clash), [1; 2; 3; 11; 12; 13]%nat. destruct (dedup 100 (stored clash) top index0 [1; 2; 3; 11; 12; 13]%nat) as [st| | |] eqn:E; [|vm_compute in E; discriminate..]. exists st.
  split; [apply (check_graph clash (fun _ => 0%nat)); vm_compute; reflexivity|]. split; [intros i o j _ _; left; reflexivity|]. split; [repeat constructor; cbn; lia|].
  split; [intros i H; destruct (stored clash i) as [o|] eqn:S1; [apply stored_out in S1; cbn in S1; repeat (destruct S1 as [S1|S1]; [injection S1 as <- <-; cbn; tauto|]); destruct S1|destruct H; reflexivity]|].
  split; [intros i o S1; apply stored_out in S1; cbn in S1; repeat (destruct S1 as [S1|S1]; [injection S1 as <- <-; reflexivity|]); destruct S1|]. split; [reflexivity|]. exists 13%nat. split; [discriminate|].
  assert (R13 : i_rep st 13 = 3%nat /\ db_graph (stored clash) st 3 = Some (def (Some "A") (Some 4%Z) (Struct StructType [mem "b" 2 0] [])) /\ db_graph (stored clash) st 2 = Some (def (Some "B") (Some 4%Z) (Struct StructType [mem "v" 1 0] [])) /\ db_graph (stored clash) st 1 = Some (def (Some "int") (Some 4%Z) (BaseType "signed"))) by (vm_compute in E; injection E as <-; vm_compute; auto).
  destruct R13 as [-> [D3 [D2 D1]]]. intros [Q [K H]].
  destruct (K _ _ H) as [a [b [A [B [_ [_ Al]]]]]]. rewrite D3 in B. injection A as <-. injection B as <-. specialize (Al eq_refl eq_refl). pose proof (first_link Q _ _ _ _ _ _ _ _ _ _ Al eq_refl eq_refl) as Lk. cbn in Lk. inversion Lk as [|? ? Q2]; subst. clear - K Q2 D2 D1.
  destruct (K _ _ Q2) as [a [b [A [B [_ [_ Al]]]]]]. rewrite D2 in B. injection A as <-. injection B as <-. specialize (Al eq_refl eq_refl). pose proof (first_link Q _ _ _ _ _ _ _ _ _ _ Al eq_refl eq_refl) as Lk. cbn in Lk. inversion Lk as [|? ? Q1]; subst. destruct (K _ _ Q1) as [a [b [A [B [Nm _]]]]]. rewrite D1 in B. injection A as <-. injection B as <-. discriminate.
Qed.
Print Assumptions C67_names_refuted.

(** C67 refuted for arrays: the database may have a link that leads out of it (an id that is not defined), depending on the order of the iteration.
    int a[2][3][4] in two units: each unit has the array 2 with the nested entries 3 (Level 1) and 4 (Level 0, of int); the entries 3, 4 are children of entry 2.
    Refuted: the sentence about links of C67_meaning without [nested_alone]. *)
Definition cube_of (k : nat) : list (nat * object) :=
  ((k + 1, def (Some "int") (Some 4%Z) (BaseType "signed")) :: process_array (k + 2) None false None None None (k + 1)
    [{| s_index := 5 + k; s_lower := None; s_count := None; s_upper := Some 1%Z |}; {| s_index := 3 + k; s_lower := None; s_count := None; s_upper := Some 2%Z |}; {| s_index := 4 + k; s_lower := None; s_count := None; s_upper := Some 3%Z |}])%nat.
Definition cubes : list (nat * object) := (cube_of 0 ++ cube_of 10)%list.
Definition cube_parent (i : nat) : nat := match i with 3 | 4 => 2 | 13 | 14 => 12 | _ => 0 end%nat.
Definition dangling (G : nat -> option object) (st : index) : bool :=
  existsb (fun r => match db_graph G st r with Some o => existsb (fun l => match l with Some j => match db_graph G st j with None => true | _ => false end | None => false end) (links o) | None => false end) (i_db st).
Lemma cubes_ok : graph_ok (stored cubes).
Proof. apply (check_graph cubes (fun i => match i with 4 | 14 => 1 | 3 | 13 => 2 | 2 | 12 => 3 | _ => 0 end%nat)); vm_compute; reflexivity. Qed.
Definition run_ok (G : nat -> option object) (parent : nat -> nat) (order : list nat) (f : index -> bool) : bool := match dedup 100 G parent index0 order with Ok st => f st | _ => false end.
Theorem C67_arrays_refuted : exists G parent order order', graph_ok G /\ NoDup order /\ (forall i, In i order <-> In i order') /\ (forall i, G i <> None -> In i order) /\
  run_ok G parent order (dangling G) = true /\ run_ok G parent order' (fun st => negb (dangling G st)) = true.
Proof.
  exists (stored cubes), cube_parent, [1; 11; 3; 12; 2; 4; 13; 14]%nat, [1; 11; 2; 3; 4; 12; 13; 14]%nat. split; [exact cubes_ok|]. split; [repeat constructor; cbn; lia|]. split; [intros i; cbn; tauto|].
  split; [intros i H; destruct (stored cubes i) as [o|] eqn:S1; [apply stored_out in S1; cbn in S1; repeat (destruct S1 as [S1|S1]; [injection S1 as <- <-; cbn; tauto|]); destruct S1|destruct H; reflexivity]|].
  split; vm_compute; reflexivity.
Qed.
Print Assumptions C67_arrays_refuted.

(** C67 refuted for bit-fields of DWARF 2 and 3 (attribute BitOffset): the offset of the unit of a bit-field is not compared.
      struct { int x : 3; int : 32; } and struct { int : 32; int x : 3; }, both without a name, are one structure in the database. *)
Definition bits_at (byte : Z) : field := {| f_name := Some "x"; f_type := Some 1%nat; f_size := None; f_align := None; f_byte := byte; f_databit := None; f_bit := Some 29%Z; f_bits := Some 3%Z |}.
Definition bitfields : list (nat * object) :=
  [(1, def (Some "int") (Some 4%Z) (BaseType "signed")); (2, def None (Some 8%Z) (Struct StructType [bits_at 0] [])); (3, def None (Some 8%Z) (Struct StructType [bits_at 4] []))]%nat.
Theorem C67_bits_refuted : exists G order st, graph_ok G /\ NoDup order /\ dedup 100 G top index0 order = Ok st /\
  exists i r g f f' hs hs' a b, i_rep st i = r /\ G i = Some a /\ G r = Some b /\ o_body a = Struct g [f] hs /\ o_body b = Struct g [f'] hs' /\ f_byte f <> f_byte f'.
Proof.
  exists (stored bitfields), [1; 2; 3]%nat. eexists. split; [apply (check_graph bitfields (fun i => i)); vm_compute; reflexivity|]. split; [repeat constructor; cbn; lia|]. split; [vm_compute; reflexivity|].
  exists 3%nat, 2%nat. eexists _, _, _, _, _, _, _. split; [reflexivity|]. split; [reflexivity|]. split; [reflexivity|]. split; [reflexivity|]. split; [reflexivity|]. cbn. discriminate.
Qed.
Print Assumptions C67_bits_refuted.

(** C67 refuted for declarations: a pointer to a structure that is defined in its unit may lead to a declaration in the database, though the definition is there too; it depends on the order of the iteration.
      a.c: struct s { int v; } *p;    b.c: struct s; struct s *q; *)
Definition opaque : list (nat * object) :=
  [(1, def (Some "int") (Some 4%Z) (BaseType "signed")); (2, def (Some "s") (Some 4%Z) (Struct StructType [mem "v" 1 0] [])); (3, def None (Some 8%Z) (Pointer (Some 2)));
   (12, declared "s" (Struct StructType [] [])); (13, def None (Some 8%Z) (Pointer (Some 12)))]%nat.
(** where the pointer of entry i leads to in the database is a definition *)
Definition to_definition (G : nat -> option object) (st : index) (i : nat) : bool :=
  match db_graph G st (i_rep st i) with
  | Some o => match o_body o with Pointer (Some j) => match db_graph G st j with Some t => negb (o_decl t) | None => false end | _ => false end
  | None => false
  end.
Theorem C67_declarations_refuted : exists G order order' i t a b, graph_ok G /\ NoDup order /\ (forall i, In i order <-> In i order') /\ (forall i, G i <> None -> In i order) /\
  G i = Some a /\ o_body a = Pointer (Some t) /\ G t = Some b /\ o_decl b = false /\
  run_ok G top order (fun st => negb (to_definition G st i) && existsb (Nat.eqb t) (i_db st)) = true /\ run_ok G top order' (fun st => to_definition G st i) = true.
Proof.
  exists (stored opaque), [1; 12; 13; 2; 3]%nat, [1; 2; 3; 12; 13]%nat, 3%nat, 2%nat. eexists _, _. split; [apply (check_graph opaque (fun i => match i with 3 | 13 => 1 | _ => 0 end%nat)); vm_compute; reflexivity|]. split; [repeat constructor; cbn; lia|]. split; [intros i; cbn; tauto|].
  split; [intros i H; destruct (stored opaque i) as [o|] eqn:S1; [apply stored_out in S1; cbn in S1; repeat (destruct S1 as [S1|S1]; [injection S1 as <- <-; cbn; tauto|]); destruct S1|destruct H; reflexivity]|].
  split; [reflexivity|]. split; [reflexivity|]. split; [reflexivity|]. split; [reflexivity|]. split; vm_compute; reflexivity.
Qed.
Print Assumptions C67_declarations_refuted.

(** * C66: ids *)
(** C66: the ids given to the objects of the database are all different, whatever the names; each is made of the prefix of its kind, its name, and the number of earlier objects with the same text in decimal,
    with zeros in front up to 4 digits *)
Theorem C66_ids : forall objs, List.length (ids [] objs) = List.length objs /\ NoDup (ids [] objs) /\
  (forall k kind name, nth_error objs k = Some (kind, name) -> nth_error (ids [] objs) k = Some (prefix_of kind name ++ "_" ++ padded (earlier (prefix_of kind name) objs k))).
Proof. exact ids_padded. Qed.
Print Assumptions C66_ids.
(** names that look like ids of others *)
Example C66_ex : ids [] [("struct", "a"); ("struct", "a"); ("struct", "a_0001"); ("", "struct_a"); ("struct", "")] = ["struct_a_0000"; "struct_a_0001"; "struct_a_0001_0000"; "struct_a_0002"; "struct_0000"].
Proof. reflexivity. Qed.

(** * C68: arrays *)
(** C68: an array of debugging data with the dimensions d1 .. dn of elements t becomes an array of d1 arrays of d2 ... of elements t, each with its lower bound, its number of elements
    (the count, or from the lower to the upper bound, or -1 for an open array) and its level (the number of dimensions inside of it); the outermost one has the name, sizes and stride of the entry.
    Without dimensions: an open array of t. *)
Theorem C68_arrays : forall index name decl size align stride t children, NoDup (index :: map s_index children) ->
  let G := stored (process_array index name decl size align stride t children) in
  (exists o e l c v, G index = Some o /\ o_name o = name /\ o_decl o = decl /\ o_size o = size /\ o_align o = align /\ o_body o = Array e stride l c v) /\
  (children = [] -> is_array G t index [(None, (-1)%Z)]) /\
  (children <> [] -> exists ds, is_array G t index ds /\ Forall2 (fun s d => fst d = s_lower s /\ elements s (snd d)) children ds).
Proof. exact array_ok. Qed.
Print Assumptions C68_arrays.
(** int a[2][3] of arrays with indexes 1..4 *)
Example C68_ex : process_array 2 None false None None None 1 [{| s_index := 5; s_lower := None; s_count := None; s_upper := Some 1%Z |}; {| s_index := 3; s_lower := None; s_count := Some 3%Z; s_upper := None |}; {| s_index := 4; s_lower := Some 1%Z; s_count := None; s_upper := Some 4%Z |}] =
  [(2%nat, def None None (Array (Some 3%nat) None None 2 2)); (3%nat, def None None (Array (Some 4%nat) None None 3 1)); (4%nat, def None None (Array (Some 1%nat) None (Some 1%Z) 4 0))] /\ NoDup [2; 5; 3; 4]%nat.
Proof. split; [reflexivity|repeat constructor; cbn; lia]. Qed.
