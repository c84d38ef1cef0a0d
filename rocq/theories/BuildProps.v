(** Properties of the way of type information from debugging data to the run time: the builder (C74), sizes and layout (C75), base types (C76), variables and functions (C77). *)
From Coq Require Import ZArith String Ascii List Bool Lia Permutation.
From Verif Require Import Base MetadbModel MetadbSpec MetadbProof6 BuildModel.
From Verif Require Import EntryModel ValueModel.
From Verif Require Import BuildSpec BuildProof1 BuildProof2 BuildProof3 BuildProof4 BuildProof5 BuildProof6.
Import ListNotations.
Open Scope string_scope.

(** * Debugging data of the examples *)
Definition dt (t : dtag) (children : list nat) (name : option string) (type : option nat) (size : option Z) : die :=
  {| d_tag := t; d_children := children; d_name := name; d_decl := None; d_type := type; d_size := size; d_align := None; d_encoding := None; d_value := None; d_location := None;
     d_bitoffset := None; d_databit := None; d_bits := None; d_lower := None; d_count := None; d_upper := None; d_stride := None |}.
Definition dt_base (n : string) (size enc : Z) : die :=
  {| d_tag := DBase; d_children := []; d_name := Some n; d_decl := None; d_type := None; d_size := Some size; d_align := None; d_encoding := Some enc; d_value := None; d_location := None;
     d_bitoffset := None; d_databit := None; d_bits := None; d_lower := None; d_count := None; d_upper := None; d_stride := None |}.
Definition dt_decl (n : string) : die :=
  {| d_tag := DStruct StructType; d_children := []; d_name := Some n; d_decl := Some true; d_type := None; d_size := None; d_align := None; d_encoding := None; d_value := None; d_location := None;
     d_bitoffset := None; d_databit := None; d_bits := None; d_lower := None; d_count := None; d_upper := None; d_stride := None |}.
Definition dt_mem (n : string) (t : nat) (at_ : Z) : die :=
  {| d_tag := DMember; d_children := []; d_name := Some n; d_decl := None; d_type := Some t; d_size := None; d_align := None; d_encoding := None; d_value := None; d_location := Some at_;
     d_bitoffset := None; d_databit := None; d_bits := None; d_lower := None; d_count := None; d_upper := None; d_stride := None |}.
Definition dt_val (n : string) (v : Z) : die :=
  {| d_tag := DEnumerator; d_children := []; d_name := Some n; d_decl := None; d_type := None; d_size := None; d_align := None; d_encoding := None; d_value := Some v; d_location := None;
     d_bitoffset := None; d_databit := None; d_bits := None; d_lower := None; d_count := None; d_upper := None; d_stride := None |}.
Definition dt_upper (u : Z) : die :=
  {| d_tag := DSubrange; d_children := []; d_name := None; d_decl := None; d_type := None; d_size := None; d_align := None; d_encoding := None; d_value := None; d_location := None;
     d_bitoffset := None; d_databit := None; d_bits := None; d_lower := None; d_count := None; d_upper := Some u; d_stride := None |}.
Definition entries (l : list (nat * die)) (i : nat) : option die := option_map snd (List.find (fun '(j, _) => Nat.eqb j i) l).
Lemma entries_out : forall l i d, entries l i = Some d -> In (i, d) l.
Proof. intros l i d E. unfold entries in E. destruct (List.find _ l) as [[j x]|] eqn:F; [|discriminate]. apply find_some in F. destruct F as [I Q]. apply Nat.eqb_eq in Q. injection E as <-. subst. assumption. Qed.
Fixpoint distinct (l : list nat) : bool := match l with [] => true | x :: r => negb (existsb (Nat.eqb x) r) && distinct r end.
Lemma distinct_ok : forall l, distinct l = true -> NoDup l.
Proof.
  induction l as [|x r IH]; intros H; constructor; cbn in H; apply andb_true_iff in H; destruct H as [A B]; [|exact (IH B)]. intros I. apply negb_true_iff in A.
  assert (E : existsb (Nat.eqb x) r = true) by (apply existsb_exists; exists x; split; [exact I|apply Nat.eqb_refl]). congruence.
Qed.
Definition tree_b (l : list (nat * die)) (parent rank : nat -> nat) : bool :=
  forallb (fun '(i, d) => forallb (fun c => Nat.eqb (parent c) i && Nat.ltb (rank c) (rank i) && negb (Nat.eqb c 0)) (d_children d) && distinct (d_children d)) l.
Lemma check_tree : forall l parent rank, tree_b l parent rank = true -> tree (entries l) /\ forall i c, child (entries l) i c -> parent c = i.
Proof.
  intros l parent rank B. unfold tree_b in B. rewrite forallb_forall in B.
  assert (C : forall i c, child (entries l) i c -> parent c = i /\ (rank c < rank i)%nat /\ c <> 0%nat).
  { intros i c [d [D I]]. specialize (B _ (entries_out _ _ _ D)). cbn in B. apply andb_true_iff in B. destruct B as [B _]. rewrite forallb_forall in B. specialize (B c I). apply andb_true_iff in B. destruct B as [B B3].
    apply andb_true_iff in B. destruct B as [B1 B2]. apply Nat.eqb_eq in B1. apply Nat.ltb_lt in B2. apply negb_true_iff, Nat.eqb_neq in B3. auto. }
  split; [|intros i c H; exact (proj1 (C i c H))]. split.
  - intros i H. exact (proj2 (proj2 (C i _ H)) eq_refl).
  - intros i j c Hi Hj. rewrite <- (proj1 (C i c Hi)). exact (proj1 (C j c Hj)).
  - intros i d D. specialize (B _ (entries_out _ _ _ D)). cbn in B. apply andb_true_iff in B. destruct B as [_ B]. exact (distinct_ok _ B).
  - exists rank. intros i c H. exact (proj1 (proj2 (C i c H))).
Qed.
Definition objects_of (x : out (list (nat * object))) : list (nat * object) := match x with Ok l => l | _ => [] end.

(** ** A program of two units:
      a.c: enum color { RED, BLUE = 7 }; struct node { int v; struct node *next; int m[2][3]; }; typedef struct node T; int f(struct node *, ...) by a type of functions
      b.c: struct node; struct node *p; int f(struct node *n, ...); signed char *)
Definition prog : list (nat * die) :=
  [(0, dt DOther [1; 20] None None None);
   (1, dt DUnit [2; 3; 7; 8; 11; 12; 15] (Some "a.c") None None);
   (2, dt_base "int" 4 5);
   (3, dt (DStruct StructType) [4; 5; 6] (Some "node") None (Some 40%Z)); (4, dt_mem "v" 2 0); (5, dt_mem "next" 7 8); (6, dt_mem "m" 8 16);
   (7, dt DPointer [] None (Some 3) (Some 8%Z));
   (8, dt DArray [9; 10] None (Some 2) None); (9, dt_upper 1); (10, dt_upper 2);
   (11, dt DTypedef [] (Some "T") (Some 3) None);
   (12, dt DEnum [13; 14] (Some "color") None (Some 4%Z)); (13, dt_val "RED" 0); (14, dt_val "BLUE" 7);
   (15, dt DSubroutine [16; 17] None (Some 2) None); (16, dt DParameter [] None (Some 7) None); (17, dt DUnspecifiedParameters [] None None None);
   (20, dt DUnit [21; 22; 23; 24; 25; 26] (Some "b.c") None None);
   (21, dt_decl "node"); (22, dt DPointer [] None (Some 21) (Some 8%Z)); (23, dt_base "int" 4 5); (24, dt_base "signed char" 1 6);
   (25, dt DVariable [] (Some "p") (Some 22) None);
   (26, dt DSubprogram [27; 28] (Some "f") (Some 23) None); (27, dt DParameter [] (Some "n") (Some 22) None); (28, dt DUnspecifiedParameters [] None None None)]%nat.
Definition prog_parent (i : nat) : nat :=
  match i with 1 | 20 => 0 | 2 | 3 | 7 | 8 | 11 | 12 | 15 => 1 | 4 | 5 | 6 => 3 | 9 | 10 => 8 | 13 | 14 => 12 | 16 | 17 => 15 | 27 | 28 => 26 | _ => 20 end%nat.
Definition depth (i : nat) : nat := match i with 0 => 3 | 1 | 20 => 2 | 3 | 8 | 12 | 15 | 26 => 1 | _ => 0 end%nat.
Lemma prog_tree : tree (entries prog) /\ forall i c, child (entries prog) i c -> prog_parent c = i.
Proof. apply (check_tree prog prog_parent depth). vm_compute. reflexivity. Qed.
Definition prog_objects : list (nat * object) := Eval vm_compute in objects_of (build (entries prog) 10).
Definition prog_order : list nat := [22; 24; 2; 8; 3; 12; 10; 7; 15; 23; 11; 21]%nat.
Definition prog_st : index := match dedup 100 (made prog_objects) prog_parent index0 prog_order with Ok st => st | _ => index0 end.
Definition prog_others : list (nat * other) := Eval vm_compute in match build_others (entries prog) 10 with Ok l => l | _ => [] end.
Lemma prog_build : build (entries prog) 10 = Ok prog_objects.
Proof. vm_compute. reflexivity. Qed.
Definition prog_same (i j : nat) : Prop := existsb (fun '(x, y) => Nat.eqb x i && Nat.eqb y j) ((2, 23) :: (23, 2) :: map (fun i => (i, i)) prog_order)%nat = true.
Lemma prog_kept : kept (made prog_objects) (made prog_objects) prog_same.
Proof.
  intros i j H. unfold prog_same in H. apply existsb_exists in H. destruct H as [[x y] [I E]]. apply andb_true_iff in E. destruct E as [E F]. apply Nat.eqb_eq in E, F. subst x y.
  assert (L : forall x y, prog_same x y -> linked prog_same (Some x) (Some y)) by (intros; constructor; assumption).
  cbn in I. repeat (destruct I as [I|I]; [injection I as <- <-; eexists _, _; split; [reflexivity|]; split; [reflexivity|]; split; [reflexivity|]; split; [constructor|]; intros D1 D2; try discriminate;
    first [eapply al_base; reflexivity | eapply al_enum; reflexivity | eapply al_pointer; [reflexivity|reflexivity|apply L; reflexivity] | eapply al_typedef; [reflexivity|reflexivity|apply L; reflexivity]
          | eapply al_array; [reflexivity|reflexivity|apply L; reflexivity] | eapply al_sub; [reflexivity|reflexivity|repeat apply Forall2_cons; try apply Forall2_nil; first [apply pa_dots; reflexivity | apply pa_type; [discriminate|discriminate|apply L; reflexivity]]|apply L; reflexivity]
          | eapply al_struct; [reflexivity|reflexivity|reflexivity|reflexivity|repeat constructor|intros _; constructor]]|]). destruct I.
Qed.
Lemma prog_one : one_definition (made prog_objects).
Proof.
  intros i j a b n A B Da Db Na Nb K. exists prog_same. split; [exact prog_kept|]. apply stored_out in A, B. cbn in A, B.
  repeat (destruct A as [A|A]; [injection A as <- <-; try discriminate; repeat (destruct B as [B|B]; [injection B as <- <-; first [reflexivity | discriminate | cbn in *; congruence | inversion K]|]); destruct B|]). destruct A.
Qed.
Lemma prog_generated : generated (entries prog) prog_parent prog_objects prog_st.
Proof.
  split.
  - exact (proj1 prog_tree).
  - exists 10%nat. exact prog_build.
  - apply (check_graph prog_objects (fun i => match i with 7 | 22 | 10 => 1 | 8 | 15 => 2 | _ => 0 end%nat)); vm_compute; reflexivity.
  - exact prog_one.
  - intros i o j E I. apply stored_out in E. cbn in E. repeat (destruct E as [E|E]; [injection E as <- <-; cbn in I; repeat (destruct I as [I|I]; [first [injection I as <- | discriminate]; first [left; reflexivity|right; reflexivity]|]); destruct I|]). destruct E.
  - exact (proj2 prog_tree).
  - intros i d E T D. apply entries_out in E. cbn in E. repeat (destruct E as [E|E]; [injection E as <- <-; discriminate|]). destruct E.
  - exists 100%nat, prog_order. split; [repeat constructor; cbn; lia|]. split; [|vm_compute; reflexivity].
    intros i H. destruct (made prog_objects i) as [o|] eqn:E; [|destruct H; reflexivity]. apply stored_out in E. cbn in E. repeat (destruct E as [E|E]; [injection E as <- <-; cbn; tauto|]). destruct E.
Qed.

(** * C74: the builder *)
(** C74: all types declared in the units - also in namespaces, structures, functions and blocks - are in the database, and nothing else but the inner dimensions of arrays *)
Theorem C74_types : forall data, tree data -> forall fuel L, build data fuel = Ok L ->
  (forall i, declared_in data i -> kind_in data type_tag i -> made L i <> None) /\
  (forall i, made L i <> None -> declared_in data i /\ kind_in data type_tag i \/ exists a, declared_in data a /\ kind_in data (eq DArray) a /\ child data a i).
Proof. exact build_kept. Qed.
Print Assumptions C74_types.

(** C74: if all types that are referred to are declared in such places, then every link leads to an object of the database.
    Partial: only for structures of C (members and nested types), see also C74_lost_refuted. *)
Theorem C74_links_partial : forall data, tree data -> structs_plain data -> (forall i j, refers data i j -> declared_in data j) -> forall fuel L, build data fuel = Ok L ->
  forall i o j, made L i = Some o -> In (Some j) (links o) -> exists x, made L j = Some x.
Proof. exact build_links. Qed.
Print Assumptions C74_links_partial.

(** C74: the builder takes all debugging data of the expected form: parts where they belong, types that are types, names and places where they are needed *)
Theorem C74_accepts : forall data, tree data -> accepted data -> exists n, forall fuel, (n <= fuel)%nat -> exists L, build data fuel = Ok L.
Proof. exact build_takes. Qed.
Print Assumptions C74_accepts.

(** C74: the builder ends, with a database, an error, or a failure *)
Theorem C74_ends : forall data, tree data -> exists n, forall fuel, (n <= fuel)%nat -> build data fuel <> Nofuel.
Proof. exact build_ends. Qed.
Print Assumptions C74_ends.

Lemma prog_declared : forall i, In i [2; 3; 7; 8; 11; 12; 15; 21; 22; 23; 24; 25; 26]%nat -> declared_in (entries prog) i.
Proof.
  intros i H. cbn in H. repeat (destruct H as [<-|H]; [first
    [eapply (di_unit _ 1%nat); [eexists; split; [reflexivity|cbn; tauto]|reflexivity|cbn; tauto|reflexivity|cbn; discriminate]
    |eapply (di_unit _ 20%nat); [eexists; split; [reflexivity|cbn; tauto]|reflexivity|cbn; tauto|reflexivity|cbn; discriminate]]|]). destruct H.
Qed.
Example C74_ex : tree (entries prog) /\ structs_plain (entries prog) /\ (forall i j, refers (entries prog) i j -> declared_in (entries prog) j) /\ build (entries prog) 10 = Ok prog_objects /\
  declared_in (entries prog) 8 /\ kind_in (entries prog) type_tag 8 /\
  made prog_objects 8 = Some {| o_name := None; o_decl := false; o_size := None; o_align := None; o_body := Array (Some 10%nat) None None 2 1 |} /\
  made prog_objects 10 = Some {| o_name := None; o_decl := false; o_size := None; o_align := None; o_body := Array (Some 2%nat) None None 3 0 |}.
Proof.
  split; [exact (proj1 prog_tree)|]. split.
  { intros i d g c e D T I E. apply entries_out in D. cbn in D. repeat (destruct D as [D|D]; [injection D as <- <-; try discriminate; cbn in I; repeat (destruct I as [<-|I]; [injection E as <-; cbn; tauto|]); destruct I|]). destruct D. }
  split.
  { intros i j [d [D T]]. apply entries_out in D. apply prog_declared. cbn in D. repeat (destruct D as [D|D]; [injection D as <- <-; try discriminate; injection T as <-; cbn; tauto|]). destruct D. }
  split; [exact prog_build|]. split; [apply prog_declared; cbn; tauto|]. split; [eexists; split; [reflexivity|exact Logic.I]|]. split; reflexivity.
Qed.

Definition prog_declares : list nat := [2; 3; 7; 8; 11; 12; 15; 21; 22; 23; 24; 25; 26]%nat.
Lemma prog_only : forall i, declared_in (entries prog) i -> In i prog_declares.
Proof.
  intros i H. induction H as [u c d e [r [R U]] D I E N | i c d e H IH D I E N].
  - injection R as <-. cbn in U. destruct U as [<-|[<-|[]]]; injection D as <-; cbn in I |- *; tauto.
  - exfalso. cbn in IH. repeat (destruct IH as [<-|IH]; [injection D as <-; cbn in I; first [destruct I; fail | apply N; exact Logic.I | repeat (destruct I as [<-|I]; [injection E as <-; apply N; first [left; reflexivity | right; left; reflexivity]|]); destruct I]|]). destruct IH.
Qed.
Example C74_accepts_ex : accepted (entries prog).
Proof.
  split.
  - discriminate.
  - intros u [r [R U]]. injection R as <-. cbn in U. destruct U as [<-|[<-|[]]]; (eexists; split; [reflexivity|]; split; [reflexivity|]; split; [discriminate|]; cbn; intros c I;
      repeat (destruct I as [<-|I]; [eexists; split; [reflexivity|discriminate]|]); destruct I).
  - intros i d H D. apply prog_only in H. cbn in H.
    repeat (destruct H as [<-|H]; [injection D as <-; split; [discriminate|]|]); [..|destruct H]; unfold entry_ok; cbn [d_tag dt dt_base dt_decl].
    + split; [eexists; split; [reflexivity|discriminate]|auto].
    + intros c I. cbn in I. repeat (destruct I as [<-|I]; [eexists; split; [reflexivity|]; split; [|discriminate]; intros _; split; [eexists; split; [reflexivity|eexists; split; [reflexivity|exact Logic.I]]|]; split; [intros X; contradiction X; reflexivity|right; left; discriminate]|]). destruct I.
    + eexists. split; [reflexivity|exact Logic.I].
    + split; [eexists; split; [reflexivity|eexists; split; [reflexivity|exact Logic.I]]|]. intros c I. cbn in I. repeat (destruct I as [<-|I]; [eexists; split; reflexivity|]). destruct I.
    + split; [discriminate|]. eexists. split; [reflexivity|exact Logic.I].
    + intros c I. cbn in I. repeat (destruct I as [<-|I]; [eexists; split; [reflexivity|]; split; [reflexivity|]; split; discriminate|]). destruct I.
    + split; [eexists; split; [reflexivity|exact Logic.I]|]. split.
      * intros c I. cbn in I. destruct I as [<-|[<-|[]]]; (eexists; split; [reflexivity|]; intros _); [eexists; split; [reflexivity|exact Logic.I]|exact Logic.I].
      * intros l1 c l2 x E [e [Ec Te]] I. cbn in E. destruct l1 as [|y [|z l1]]; cbn in E; injection E; intros; subst; [injection Ec as <-; discriminate|destruct I|destruct l1; discriminate].
    + intros c [].
    + eexists. split; [reflexivity|exact Logic.I].
    + split; [eexists; split; [reflexivity|discriminate]|auto].
    + split; [eexists; split; [reflexivity|discriminate]|auto].
    + eexists. split; [reflexivity|exact Logic.I].
    + split; [eexists; split; [reflexivity|exact Logic.I]|]. split.
      * intros c I. cbn in I. destruct I as [<-|[<-|[]]]; (eexists; split; [reflexivity|]; intros _); [eexists; split; [reflexivity|exact Logic.I]|exact Logic.I].
      * intros l1 c l2 x E [e [Ec Te]] I. cbn in E. destruct l1 as [|y [|z l1]]; cbn in E; injection E; intros; subst; [injection Ec as <-; discriminate|destruct I|destruct l1; discriminate].
Qed.

(** C74 refuted: a type declared in another place is lost without an error: an entry that refers to it gets no type (metadb.go:43-54), which is printed as void.
      A function with an inlined call below which a structure is declared; a pointer to the structure. *)
Definition lost : list (nat * die) :=
  [(0, dt DOther [1] None None None); (1, dt DUnit [2; 5] (Some "a.c") None None); (2, dt DSubprogram [3] (Some "f") None None); (3, dt Skipped [4] None None None);
   (4, dt (DStruct StructType) [] (Some "s") None (Some 4%Z)); (5, dt DPointer [] None (Some 4) (Some 8%Z))]%nat.
Theorem C74_lost_refuted : exists data fuel L i o j, tree data /\ structs_plain data /\ build data fuel = Ok L /\ made L i = Some o /\ In (Some j) (links o) /\ kind_in data type_tag j /\ made L j = None.
Proof.
  exists (entries lost), 10%nat. eexists _, 5%nat, _, 4%nat.
  split; [apply (check_tree lost (fun i => match i with 1 => 0 | 2 | 5 => 1 | 3 => 2 | _ => 3 end%nat) (fun i => 5 - i)%nat); vm_compute; reflexivity|].
  split; [intros i d g c e D T I E; apply entries_out in D; cbn in D; repeat (destruct D as [D|D]; [injection D as <- <-; try discriminate; destruct I|]); destruct D|].
  split; [vm_compute; reflexivity|]. split; [reflexivity|]. split; [left; reflexivity|]. split; [eexists; split; [reflexivity|exact Logic.I]|reflexivity].
Qed.
Print Assumptions C74_lost_refuted.

(** * C75: the run time agrees with the debugging data *)
(** C75: every type declared in the program has a static entry, and from it on all ways along members, elements, parameters, typedefs and pointers meet entries with the kind, name, size, members
    (names, byte offsets, bit-fields), enumerators and dimensions that the debugging entries have there.
    Partial: under the one definition rule; where the run time has a declaration, nothing is said; the byte offset of a bit-field of DWARF 2 and 3 is not said (C67_bits_refuted);
    arrays with three and more dimensions have to be left alone by the merging ([ge_nested], C67_arrays_refuted). *)
Theorem C75_faithful_partial : forall data parent L W st, generated data parent L st -> exists Q, faithful data (run_time L W st) Q /\
  forall i, declared_in data i -> kind_in data type_tag i -> i_dup st (parent i) = false \/ In (i_rep st i) (i_db st) -> Q i (ty (i_rep st i)).
Proof. intros data parent L W st Ge. destruct (generated_faithful data parent L W st Ge) as [Q [F [_ X]]]. exists Q. split; [exact F|exact X]. Qed.
Print Assumptions C75_faithful_partial.

(** C75: metac_entry_byte_size gives the size by the debugging data - through typedefs and qualifiers, with all dimensions of arrays - if no declaration is met on the way *)
Theorem C75_size : forall data R Q, faithful data R Q -> forall i r z, Q i r -> dw_size data i z -> (0 <= z < 2 ^ 64)%Z ->
  meets_declaration R r \/ exists n, forall fuel, (n <= fuel)%nat -> byte_size fuel R (Some (St r)) = Ret (inl z).
Proof. exact size_ok. Qed.
Print Assumptions C75_size.

(** C75: metac_entry_members_count and metac_entry_by_member_id give the members of the debugging data, in their order *)
Theorem C75_members : forall data R Q, faithful data R Q -> forall i r d g, Q i r -> data i = Some d -> d_tag d = DStruct g -> ~ is_declaration d -> e_declaration (R r) = false ->
  let ms := filter (fun c => match data c with Some x => match d_tag x with DMember => true | _ => false end | None => false end) (d_children d) in
  forall fuel, member_count (S fuel) R (Some (St r)) = Ret (Z.of_nat (List.length ms)) /\
    forall k c, nth_error ms k = Some c -> exists x q, data c = Some x /\ by_member_id (S fuel) R (Some (St r)) (Z.of_nat k) = Ret (Some (St q)) /\ member_says Q x (R q).
Proof. exact members_ok. Qed.
Print Assumptions C75_members.

(** the program of the examples: T has 40 bytes and 3 members, the array 24 bytes; the declaration of b.c stays a declaration *)
Example C75_ex : generated (entries prog) prog_parent prog_objects prog_st /\ i_db prog_st = [22; 24; 2; 8; 3; 12; 10; 15; 11; 21]%nat /\
  map (i_rep prog_st) [7; 23]%nat = [22; 2]%nat /\ dw_size (entries prog) 11 40 /\ dw_size (entries prog) 8 24 /\
  byte_size 10 (run_time prog_objects prog_others prog_st) (Some (St (ty (i_rep prog_st 11)))) = Ret (inl 40%Z) /\ byte_size 10 (run_time prog_objects prog_others prog_st) (Some (St (ty (i_rep prog_st 8)))) = Ret (inl 24%Z) /\
  member_count 10 (run_time prog_objects prog_others prog_st) (Some (St (ty (i_rep prog_st 11)))) = Ret 3%Z /\
  exists Q, faithful (entries prog) (run_time prog_objects prog_others prog_st) Q /\ Q 11%nat (ty (i_rep prog_st 11)).
Proof.
  split; [exact prog_generated|]. split; [vm_compute; reflexivity|]. split; [vm_compute; reflexivity|].
  split; [eapply dz_through; [reflexivity|left; reflexivity|cbn; discriminate|reflexivity|]; eapply dz_plain; [reflexivity|right; right; eexists; reflexivity|cbn; discriminate|reflexivity]|].
  split.
  { change 24%Z with (fold_right Z.mul 4 [2; 3])%Z. eapply dz_array; [reflexivity|reflexivity|cbn; discriminate|reflexivity|eapply dz_plain; [reflexivity|left; reflexivity|cbn; discriminate|reflexivity]| |discriminate|repeat constructor].
    repeat constructor; eapply ra_upper; reflexivity. }
  split; [vm_compute; reflexivity|]. split; [vm_compute; reflexivity|]. split; [vm_compute; reflexivity|].
  destruct (C75_faithful_partial _ _ _ prog_others _ prog_generated) as [Q [F X]]. exists Q. split; [exact F|]. apply X; [apply prog_declared; cbn; tauto|eexists; split; [reflexivity|exact Logic.I]|]. right. vm_compute. tauto.
Qed.

(** C75 refuted: a typedef of a structure which another unit only declares may have the size 0 and no members at run time, though its own unit has the definition; it depends on the order in which Go's map is iterated.
      t.h: typedef struct s T;    a.c: #include "t.h"  struct s { int v; };    b.c: #include "t.h" *)
Definition hidden : list (nat * die) :=
  [(0, dt DOther [1; 10] None None None);
   (1, dt DUnit [2; 3; 5] (Some "a.c") None None); (2, dt_base "int" 4 5); (3, dt (DStruct StructType) [4] (Some "s") None (Some 4%Z)); (4, dt_mem "v" 2 0); (5, dt DTypedef [] (Some "T") (Some 3) None);
   (10, dt DUnit [11; 12] (Some "b.c") None None); (11, dt_decl "s"); (12, dt DTypedef [] (Some "T") (Some 11) None)]%nat.
Definition hidden_parent (i : nat) : nat := match i with 1 | 10 => 0 | 2 | 3 | 5 => 1 | 4 => 3 | _ => 10 end%nat.
Definition hidden_objects : list (nat * object) := Eval vm_compute in objects_of (build (entries hidden) 10).
Definition hidden_run (order : list nat) : index := match dedup 100 (made hidden_objects) hidden_parent index0 order with Ok st => st | _ => index0 end.
Definition hidden_same (i j : nat) : Prop := existsb (fun '(x, y) => Nat.eqb x i && Nat.eqb y j) [(2, 2); (3, 3); (3, 11); (11, 3); (11, 11); (5, 5); (5, 12); (12, 5); (12, 12)]%nat = true.
Lemma hidden_kept : kept (made hidden_objects) (made hidden_objects) hidden_same.
Proof.
  intros i j H. unfold hidden_same in H. apply existsb_exists in H. destruct H as [[x y] [I E]]. apply andb_true_iff in E. destruct E as [E F]. apply Nat.eqb_eq in E, F. subst x y.
  assert (L : forall x y, hidden_same x y -> linked hidden_same (Some x) (Some y)) by (intros; constructor; assumption).
  cbn in I. repeat (destruct I as [I|I]; [injection I as <- <-; eexists _, _; split; [reflexivity|]; split; [reflexivity|]; split; [reflexivity|]; split; [constructor|]; intros D1 D2; try discriminate;
    first [eapply al_base; reflexivity | eapply al_typedef; [reflexivity|reflexivity|apply L; reflexivity] | eapply al_struct; [reflexivity|reflexivity|reflexivity|reflexivity|repeat constructor|intros _; constructor]]|]). destruct I.
Qed.
Lemma hidden_generated : forall order, In order [[12; 11; 5; 3; 2]; [5; 3; 2; 12; 11]]%nat -> generated (entries hidden) hidden_parent hidden_objects (hidden_run order).
Proof.
  intros order O. assert (T : tree (entries hidden) /\ forall i c, child (entries hidden) i c -> hidden_parent c = i) by (apply (check_tree hidden hidden_parent (fun i => match i with 0 => 3 | 1 | 10 => 2 | 3 => 1 | _ => 0 end%nat)); vm_compute; reflexivity).
  split.
  - exact (proj1 T).
  - exists 10%nat. vm_compute. reflexivity.
  - apply (check_graph hidden_objects (fun i => 0%nat)); vm_compute; reflexivity.
  - intros i j a b n A B Da Db Na Nb K. exists hidden_same. split; [exact hidden_kept|]. apply stored_out in A, B. cbn in A, B.
    repeat (destruct A as [A|A]; [injection A as <- <-; try discriminate; repeat (destruct B as [B|B]; [injection B as <- <-; first [reflexivity | discriminate | cbn in *; congruence | inversion K]|]); destruct B|]). destruct A.
  - intros i o j E I. apply stored_out in E. cbn in E. repeat (destruct E as [E|E]; [injection E as <- <-; cbn in I; repeat (destruct I as [I|I]; [injection I as <-; left; reflexivity|]); destruct I|]). destruct E.
  - exact (proj2 T).
  - intros i d E Tg D. apply entries_out in E. cbn in E. repeat (destruct E as [E|E]; [injection E as <- <-; discriminate|]). destruct E.
  - exists 100%nat, order. destruct O as [<-|[<-|[]]]; (split; [repeat constructor; cbn; lia|]; split; [|vm_compute; reflexivity];
      intros i H; destruct (made hidden_objects i) as [o|] eqn:E; [|destruct H; reflexivity]; apply stored_out in E; cbn in E; repeat (destruct E as [E|E]; [injection E as <- <-; cbn; tauto|]); destruct E).
Qed.
Theorem C75_opaque_refuted : exists data parent L W st st' i z, generated data parent L st /\ generated data parent L st' /\ declared_in data i /\ dw_size data i z /\ In (i_rep st i) (i_db st) /\ z <> 0%Z /\
  byte_size 10 (run_time L W st) (Some (St (ty (i_rep st i)))) = Ret (inl 0%Z) /\ member_count 10 (run_time L W st) (Some (St (ty (i_rep st i)))) = Ret 0%Z /\
  byte_size 10 (run_time L W st') (Some (St (ty (i_rep st' i)))) = Ret (inl z).
Proof.
  exists (entries hidden), hidden_parent, hidden_objects, [], (hidden_run [12; 11; 5; 3; 2]%nat), (hidden_run [5; 3; 2; 12; 11]%nat), 5%nat, 4%Z.
  split; [apply hidden_generated; cbn; tauto|]. split; [apply hidden_generated; cbn; tauto|].
  split; [eapply (di_unit _ 1%nat); [eexists; split; [reflexivity|cbn; tauto]|reflexivity|cbn; tauto|reflexivity|cbn; discriminate]|].
  split; [eapply dz_through; [reflexivity|left; reflexivity|cbn; discriminate|reflexivity|]; eapply dz_plain; [reflexivity|right; right; eexists; reflexivity|cbn; discriminate|reflexivity]|].
  split; [vm_compute; tauto|]. split; [lia|]. repeat split; vm_compute; reflexivity.
Qed.
Print Assumptions C75_opaque_refuted.

(** * C76: base types *)
(** C76: if metac_entry_is_<type> is true for the entry of a base type, then the debugging data has this type of C: its name says so in some order of the words, and encoding and size are those of the type *)
Theorem C76_sound : forall data parent L W st, generated data parent L st -> forall i d n, declared_in data i -> data i = Some d -> d_tag d = DBase -> d_name d = Some n ->
  i_dup st (parent i) = false \/ In (i_rep st i) (i_db st) -> forall fuel c, entry_is fuel (run_time L W st) (Some (St (ty (i_rep st i)))) c = Ret true ->
  means n (d_size d) c /\ (exists e, d_encoding d = Some e /\ dw_encoding_of c e) /\ (d_size d = Some (size_of c) \/ d_size d = None \/ d_size d = Some 0%Z).
Proof. intros data parent L W st Ge i d n Di D T Nm Or. exact (base_sound data parent L W st Ge i d n Di D T Nm Or). Qed.
Print Assumptions C76_sound.

(** C76: base types with the names that GCC and Clang use are found to be their type.
    Beyond the property: other orders of the words are not always known (C76_order_refuted), and there is no function for signed char (C76_signed_char_refuted). *)
Theorem C76_known : forall data parent L W st, generated data parent L st -> forall i d n, declared_in data i -> data i = Some d -> d_tag d = DBase -> d_name d = Some n ->
  i_dup st (parent i) = false \/ In (i_rep st i) (i_db st) -> forall c e, In n (compilers c) -> d_encoding d = Some e -> dw_encoding_of c e -> d_size d = Some (size_of c) ->
  forall fuel, entry_is (S fuel) (run_time L W st) (Some (St (ty (i_rep st i)))) c = Ret true.
Proof. intros data parent L W st Ge i d n Di D T Nm Or. exact (base_known data parent L W st Ge i d n Di D T Nm Or). Qed.
Print Assumptions C76_known.
(** int of b.c is the one of a.c, and is found *)
Example C76_ex : generated (entries prog) prog_parent prog_objects prog_st /\ declared_in (entries prog) 23 /\ In (i_rep prog_st 23) (i_db prog_st) /\ In "int" (compilers CInt) /\
  entry_is 1 (run_time prog_objects prog_others prog_st) (Some (St (ty (i_rep prog_st 23)))) CInt = Ret true /\ entry_is 1 (run_time prog_objects prog_others prog_st) (Some (St (ty (i_rep prog_st 23)))) CUInt = Ret false.
Proof. split; [exact prog_generated|]. split; [apply prog_declared; cbn; tauto|]. split; [vm_compute; tauto|]. split; [cbn; tauto|]. split; vm_compute; reflexivity. Qed.

(** C76 refuted: signed char (int8_t), of the compilers' "signed char", is none of the types *)
Theorem C76_signed_char_refuted : exists data parent L W st i d, generated data parent L st /\ declared_in data i /\ data i = Some d /\ d_tag d = DBase /\ d_name d = Some "signed char" /\ d_size d = Some 1%Z /\ d_encoding d = Some 6%Z /\
  In (i_rep st i) (i_db st) /\ forall c, entry_is 1 (run_time L W st) (Some (St (ty (i_rep st i)))) c = Ret false.
Proof.
  exists (entries prog), prog_parent, prog_objects, prog_others, prog_st, 24%nat. eexists. split; [exact prog_generated|]. split; [apply prog_declared; cbn; tauto|]. split; [reflexivity|]. split; [reflexivity|]. split; [reflexivity|]. split; [reflexivity|]. split; [reflexivity|].
  split; [vm_compute; tauto|]. intros []; vm_compute; reflexivity.
Qed.
Print Assumptions C76_signed_char_refuted.

(** C76 refuted: a name that means a type may be unknown: the keys of the table for long signed and long unsigned end with a blank (metadb_types.go:55,60) *)
Theorem C76_order_refuted : exists n c, means n (Some (size_of c)) c /\ forall c', base_name n (Some (size_of c)) <> Some (ct_name c').
Proof.
  exists "long unsigned", CULong. split; [|intros []; vm_compute; discriminate]. left. exists ["unsigned"; "long"]. split; [left; reflexivity|]. cbn. apply perm_swap.
Qed.
Print Assumptions C76_order_refuted.

(** * C77: variables and functions *)
(** C77: if the builder ends with a database, then the walk has found the variables and the functions of the program: all that are declared in units, namespaces, structures, functions and blocks, and nothing else *)
Theorem C77_found : forall data fuel L, build data fuel = Ok L -> exists W, build_others data (S fuel) = Ok W /\
  forall i, In i (map fst W) <-> declared_in data i /\ (kind_in data (eq DVariable) i \/ kind_in data (eq DSubprogram) i).
Proof. exact others_found. Qed.
Print Assumptions C77_found.

(** C77: the entry of a variable or of a function has the name of the debugging entry, says whether it is a declaration, and has its type, and its parameters with their names and types and the dots at their places;
    where types agree as in C75.
    Partial: as in C75; for types in places where the builder does not look nothing is said (C74_lost_refuted). *)
Theorem C77_objects_partial : forall data parent L st, generated data parent L st -> forall W fuel, build_others data fuel = Ok W -> exists Q, faithful data (run_time L W st) Q /\
  (forall i, declared_in data i -> kind_in data type_tag i -> i_dup st (parent i) = false \/ In (i_rep st i) (i_db st) -> Q i (ty (i_rep st i))) /\
  forall i d, declared_in data i -> data i = Some d ->
    (d_tag d = DVariable -> variable_says (leads data parent st Q) d (run_time L W st (ty i))) /\
    (d_tag d = DSubprogram -> function_says data (run_time L W st) (leads data parent st Q) d (run_time L W st (ty i))).
Proof. exact objects_ok. Qed.
Print Assumptions C77_objects_partial.

(** C77: metac_entry_byte_size of a variable gives the size of its type by the debugging data, if no declaration is met on the way *)
Theorem C77_size : forall data parent L st, generated data parent L st -> forall W fuel, build_others data fuel = Ok W -> forall i d j z, declared_in data i -> data i = Some d -> d_tag d = DVariable -> d_type d = Some j ->
  declared_in data j -> i_dup st (parent j) = false \/ In (i_rep st j) (i_db st) -> dw_size data j z -> (0 <= z < 2 ^ 64)%Z ->
  meets_declaration (run_time L W st) (ty (i_rep st j)) \/ exists n, forall fuel, (n <= fuel)%nat -> byte_size fuel (run_time L W st) (Some (St (ty i))) = Ret (inl z).
Proof. exact variable_size. Qed.
Print Assumptions C77_size.

(** C77: metac_entry_parameters_count and metac_entry_by_parameter_id give the parameters of the debugging data, in their order *)
Theorem C77_parameters : forall data R to d r, function_says data R to d (R r) -> forall fuel,
  parameters_count (S fuel) R (Some (St r)) = Ret (Z.of_nat (List.length (parameters_of data d))) /\
  forall k c, nth_error (parameters_of data d) k = Some c -> exists x q, data c = Some x /\ by_parameter_id (S fuel) R (Some (St r)) (Z.of_nat k) = Ret (Some (St q)) /\ parameter_says to x (R q).
Proof. exact function_parameters. Qed.
Print Assumptions C77_parameters.

(** p and f of b.c; the type of the pointer is known to both, f has a parameter and the dots *)
Example C77_ex : generated (entries prog) prog_parent prog_objects prog_st /\ build_others (entries prog) 10 = Ok prog_others /\ List.map fst prog_others = [25%nat; 26%nat] /\
  declared_in (entries prog) 25 /\ declared_in (entries prog) 22 /\ In (i_rep prog_st 22) (i_db prog_st) /\ dw_size (entries prog) 22 8 /\
  byte_size 10 (run_time prog_objects prog_others prog_st) (Some (St (ty 25))) = Ret (inl 8%Z) /\ parameters_count 1 (run_time prog_objects prog_others prog_st) (Some (St (ty 26))) = Ret 2%Z /\
  exists Q, faithful (entries prog) (run_time prog_objects prog_others prog_st) Q /\ function_says (entries prog) (run_time prog_objects prog_others prog_st) (leads (entries prog) prog_parent prog_st Q) (dt DSubprogram [27; 28]%nat (Some "f") (Some 23%nat) None) (run_time prog_objects prog_others prog_st (ty 26)).
Proof.
  split; [exact prog_generated|]. split; [vm_compute; reflexivity|]. split; [reflexivity|]. split; [apply prog_declared; cbn; tauto|]. split; [apply prog_declared; cbn; tauto|]. split; [vm_compute; tauto|].
  split; [eapply dz_pointer; [reflexivity|reflexivity|cbn; discriminate]|]. split; [vm_compute; reflexivity|]. split; [vm_compute; reflexivity|].
  destruct (C77_objects_partial _ _ _ _ prog_generated prog_others 10 ltac:(vm_compute; reflexivity)) as [Q [F [_ X]]]. exists Q. split; [exact F|]. apply (X 26%nat); [apply prog_declared; cbn; tauto|reflexivity|reflexivity].
Qed.
