(** Properties of the reading of debugging data by the generator (C69, C70). *)
From Coq Require Import ZArith String List Bool Lia.
From Verif Require Import Base DwarfyModel DwarfySpec DwarfyProof.
Import ListNotations.

(** C69: the tree of debugging entries is read back from the stream in which DWARF writes it: each entry gets its parent and, in order, its children; the units are the children of entry 0; there are no other entries.
    Attributes Sibling may be there or not, a unit may have no null entry at its end or padding. *)
Theorem C69_tree : forall us, NoDup (0%nat :: flat_map unit_offsets us) -> (forall c, In c us -> unit_fair c) ->
  exists e, new_data (flat_map unit_written us) = Some e /\ e 0%nat = Some {| n_parent := None; n_children := map c_offset us |} /\
    (forall c, In c us -> says e 0 (Tree (c_offset c) (c_sibling c) (Some (c_kids c)))) /\ (forall x, x <> 0%nat -> ~ In x (flat_map unit_offsets us) -> e x = None).
Proof. exact new_data_ok. Qed.
Print Assumptions C69_tree.
(** two units; a structure with members and a sibling, a function with a block without children *)
Definition units0 : list cunit :=
  [{| c_offset := 11; c_sibling := None; c_nulls := 1; c_kids := [Tree 20 (Some 40) (Some [Tree 25 None None; Tree 30 None None]); Tree 40 None (Some [Tree 45 None (Some [])]); Tree 60 None None] |};
   {| c_offset := 100; c_sibling := None; c_nulls := 3; c_kids := [Tree 110 None None] |}]%nat.
Lemma units0_ok : NoDup (0%nat :: flat_map unit_offsets units0) /\ (forall c, In c units0 -> unit_fair c).
Proof.
  split; [repeat constructor; cbn; lia|]. intros c [<-|[<-|[]]]; (split; [discriminate|]); cbn.
  - intros t [<-|[<-|[<-|[]]]]; [apply fair_node; [intros x X; injection X as <-; cbn; lia|intros t [<-|[<-|[]]]; apply fair_leaf]| |apply fair_leaf].
    apply fair_node; [discriminate|]. intros t [<-|[]]. apply fair_node; [discriminate|intros t []].
  - intros t [<-|[]]. apply fair_leaf.
Qed.
Example C69_ex : match new_data (flat_map unit_written units0) with
                 | Some e => map e [0; 11; 20; 25; 40; 45; 60; 100; 110; 26]%nat
                 | None => [] end =
  map (option_map (fun '(p, l) => {| n_parent := p; n_children := l |}))
    [Some (None, [11; 100]); Some (Some 0, [20; 40; 60]); Some (Some 11, [25; 30]); Some (Some 20, []); Some (Some 11, [45]); Some (Some 40, []); Some (Some 11, []); Some (Some 0, [110]); Some (Some 100, []); None]%nat.
Proof. reflexivity. Qed.

(** C70: the data survive the way through maps and lists (as templates use them) and back *)
Theorem C70_unstructured : forall wild l, Forall (fun '(o, e) => offset_ok o /\ typed_entry e) l -> data_from wild (data_to l) = Some l.
Proof. exact data_round. Qed.
Print Assumptions C70_unstructured.
(** C70: a field made of what debug/dwarf gives has a value of the type of its class; it survives YAML, and JSON as long as numbers are exact in a float64 and no block is empty
    ([wild]: what the processor does for numbers out of range; it is never needed). Partial: the restriction for JSON; see below. Texts must be UTF-8. *)
Theorem C70_field_partial : forall wild a c v, raw c v -> let f := new_field wild a v c in
  typed_attribute f /\ a_attr f = a /\ through wild yaml f = f /\ (small (a_val f) -> through wild json f = f).
Proof. intros wild a c v R. destruct (new_field_ok wild a c v R) as [T A]. cbn zeta. split; [exact T|]. split; [exact A|]. split; [exact (yaml_ok wild _ T)|exact (json_ok wild _ T)]. Qed.
Print Assumptions C70_field_partial.
(** C70 refuted for JSON: big constants are changed, the highest address becomes what the processor makes of 2^64, an empty block becomes nil *)
Theorem C70_json_refuted : forall wild, exists f g h, typed_attribute f /\ typed_attribute g /\ typed_attribute h /\
  a_val f = VInt64 9007199254740993 /\ a_val (through wild json f) = VInt64 9007199254740992 /\
  a_val g = VUint64 18446744073709551615 /\ a_val (through wild json g) = VUint64 (wild 18446744073709551616%Z) /\
  a_val h = VInts [] /\ a_val (through wild json h) = VNil.
Proof.
  intros wild. exists {| a_attr := "ConstValue"; a_val := VInt64 9007199254740993; a_class := "ClassConstant" |}, {| a_attr := "Lowpc"; a_val := VUint64 18446744073709551615; a_class := "ClassAddress" |}, {| a_attr := "ConstValue"; a_val := VInts []; a_class := "ClassBlock" |}.
  split; [exists ClassConstant; split; [reflexivity|apply ty_const; unfold in64; lia]|]. split; [exists ClassAddress; split; [reflexivity|apply ty_address; lia]|]. split; [exists ClassBlock; split; [reflexivity|apply ty_block; constructor]|].
  repeat split.
Qed.
Print Assumptions C70_json_refuted.
(** C70 refuted for units without files: the list of files is lost on the way through maps *)
Theorem C70_files_refuted : forall wild, exists e, e_files e = Some [] /\ exists e', data_from wild (data_to [(11%Z, e)]) = Some [(11%Z, e')] /\ e_files e' = None.
Proof. intros wild. exists {| e_parent := Some 0%Z; e_tag := "CompileUnit"; e_fields := []; e_children := []; e_files := Some [] |}. split; [reflexivity|]. eexists. split; reflexivity. Qed.
Print Assumptions C70_files_refuted.
Definition entry0 : entry := {| e_parent := Some 11%Z; e_tag := "Member"; e_fields := [{| a_attr := "Name"; a_val := VString "x"; a_class := "ClassString" |}; {| a_attr := "Type"; a_val := VOffset 4294967295; a_class := "ClassReference" |}; {| a_attr := "DataMemberLoc"; a_val := VInt64 (-1); a_class := "ClassConstant" |}]; e_children := [25%Z; 30%Z]; e_files := Some ["a.c"%string] |}.
Example C70_ex : typed_entry entry0 /\ offset_ok 20 /\ data_from (fun z => z) (data_to [(20%Z, entry0)]) = Some [(20%Z, entry0)] /\
  raw ClassReference (VDwarfOffset 4294967295) /\ raw ClassConstant (VInt64 (-1)) /\ small (a_val (new_field (fun z => z) "x" (VInt64 (-1)) ClassConstant)).
Proof.
  assert (T : typed_entry entry0).
  { constructor; cbn.
    - intros p E. injection E as <-. unfold offset_ok. lia.
    - repeat constructor; [exists ClassString|exists ClassReference|exists ClassConstant]; (split; [reflexivity|constructor]); unfold in64; lia.
    - repeat constructor; unfold offset_ok; lia.
    - discriminate. }
  split; [exact T|]. split; [unfold offset_ok; lia|]. split; [vm_compute; reflexivity|]. split; [apply raw_ref; lia|]. split; [apply raw_same; [apply ty_const; unfold in64; lia|discriminate..]|]. cbn. lia.
Qed.
