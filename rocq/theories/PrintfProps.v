(** Property theorems about printf formats (C10 - C14). *)
From Coq Require Import ZArith List Bool Lia.
Import ListNotations.
From Verif Require Import PrintfModel PrintfSpec PrintfProof.
Open Scope Z_scope.

(** C10. Every outcome of parsing is either the signed overflow of a width or precision (undefined
    behaviour), or a position inside the string, behind the start when that was a percent sign. *)
Theorem C10_parse_in_bounds_partial : forall s pos, (pos <= length s)%nat ->
  parse s pos = Overflow \/
  exists p r, parse s pos = Ret (p, r) /\ (pos <= p <= length s)%nat /\ (rd s pos = Ret 37 -> (pos < p)%nat) /\
    (r <> None -> (pos + 2 <= p)%nat).
Proof. exact parse_good. Qed.
Print Assumptions C10_parse_in_bounds_partial.

(** Without ten digits in a row there is no overflow. *)
Theorem C10_parse_defined_partial : forall s pos, (pos <= length s)%nat -> no_long_number s -> parse s pos <> Overflow.
Proof. exact parse_no_overflow. Qed.
Print Assumptions C10_parse_defined_partial.

(** Counting ends within one step per character and never reads behind the string. *)
Theorem C10_count_ends_partial : forall s, count s = Overflow \/ exists z, count s = Ret z /\ 0 <= z <= Z.of_nat (length s).
Proof. exact count_good. Qed.
Print Assumptions C10_count_ends_partial.

(** Storing too, whatever the arguments. *)
Theorem C10_store_ends : forall s st args, store s st args <> OOB /\ store s st args <> NoFuel.
Proof. exact store_no. Qed.
Print Assumptions C10_store_ends.

(** The overflow is reachable: "%99999999999d". *)
Theorem C10_overflow_refuted : exists s, parse s 0 = Overflow /\ count s = Overflow.
Proof. exists (37 :: repeat 57 11 ++ [100]). vm_compute. auto. Qed.
Print Assumptions C10_overflow_refuted.

(** "x%-5.2ld%" at position 1, at the trailing percent sign, and at the terminator. *)
Example ex_parse : let s := [120; 37; 45; 53; 46; 50; 108; 100; 37] in
  parse s 1 = Ret (8%nat, Some (Spec (Flags false true false false false) 5 2 psal_l 100)) /\
  parse s 8 = Ret (9%nat, None) /\ parse s 9 = Ret (9%nat, None) /\ count s = Ret 1.
Proof. vm_compute. auto. Qed.
Example ex_no_long_number : no_long_number [37; 53; 100].
Proof.
  intros a ds b E _. apply (f_equal (@length Z)) in E. rewrite !app_length in E. cbn in E. lia.
Qed.

(** C11. For formats in which each conversion is followed by the end or by a literal character. *)
Theorem C11_count_partial : forall ps, Forall wf_piece ps -> separated ps ->
  count (format_text ps) = Ret (Z.of_nat (length (conversions ps))).
Proof. exact count_spec. Qed.
Print Assumptions C11_count_partial.

(** "%d%d": the character behind a conversion is skipped, the second one is missed. *)
Theorem C11_adjacent_refuted : exists ps, Forall wf_piece ps /\ length (conversions ps) = 2%nat /\ count (format_text ps) = Ret 1.
Proof.
  exists [Conv (Dir [] [] None psal_no 100); Conv (Dir [] [] None psal_no 100)]. split.
  - wf_pieces.
  - split; reflexivity.
Qed.
Print Assumptions C11_adjacent_refuted.

(** "%d%%d": one conversion, but the first of the two percent signs is skipped and "%d" is counted. *)
Theorem C11_percent_refuted : exists ps, Forall wf_piece ps /\ length (conversions ps) = 1%nat /\ count (format_text ps) = Ret 2.
Proof.
  exists [Conv (Dir [] [] None psal_no 100); PP; Lit [100]]. split.
  - wf_pieces.
  - split; reflexivity.
Qed.
Print Assumptions C11_percent_refuted.

(** "a%% %+5.3lld, %s" *)
Definition ex_pieces : list piece :=
  [Lit [97]; PP; Lit [32]; Conv (Dir [43] [53] (Some [51]) psal_ll 100); Lit [44; 32]; Conv (Dir [] [] None psal_no 115)].
Example ex_pieces_ok : Forall wf_piece ex_pieces /\ separated ex_pieces /\ length (conversions ex_pieces) = 2%nat.
Proof.
  split; [|split; [|reflexivity]].
  - unfold ex_pieces. wf_pieces.
    constructor; cbn; unfold is_conv; try lia.
    + repeat constructor; unfold is_flag; lia.
    + split; [repeat constructor; unfold is_digit; lia|]. split; [discriminate|vm_compute; discriminate].
    + intros p H. inversion H; subst. split; [repeat constructor; unfold is_digit; lia|vm_compute; discriminate].
  - cbn. split; [right; do 3 eexists; reflexivity|]. split; [left; reflexivity|exact I].
Qed.

(** C12. Exact for all directives without the flags '0' and ' '. *)
Theorem C12_parse_recovers_partial : forall pre d rest, well_formed d -> ~ In 48 (dflags d) -> ~ In 32 (dflags d) ->
  parse (pre ++ text d ++ rest) (length pre) = Ret (length (pre ++ text d), Some (meaning d)).
Proof. exact directive_exact. Qed.
Print Assumptions C12_parse_recovers_partial.

(** With them everything but these two flags and the exact numbers is right. *)
Theorem C12_parse_most_partial : forall pre d rest, well_formed d -> exists sp,
  parse (pre ++ text d ++ rest) (length pre) = Ret (length (pre ++ text d), Some sp) /\
  t sp = t (meaning d) /\ alen sp = alen (meaning d) /\ plus (sflags sp) = plus (sflags (meaning d)) /\
  minus (sflags sp) = minus (sflags (meaning d)) /\ pound (sflags sp) = pound (sflags (meaning d)) /\
  (format_len sp = 0 <-> format_len (meaning d) = 0) /\ (precision sp = -1 <-> precision (meaning d) = -1).
Proof. exact directive_most. Qed.
Print Assumptions C12_parse_most_partial.

(** "% d": the space flag is reported as the zero flag. *)
Theorem C12_space_refuted : exists d, well_formed d /\ dwidth d = [] /\ parse (text d) 0 <> Ret (length (text d), Some (meaning d)).
Proof.
  exists (Dir [32] [] None psal_no 100). split; [|split; [reflexivity|vm_compute; discriminate]].
  apply wf_simple; [repeat constructor; unfold is_flag; lia|unfold is_conv; lia].
Qed.
Print Assumptions C12_space_refuted.

(** "%010d": the width is read in base 8. *)
Theorem C12_width_refuted : exists d sp, well_formed d /\ parse (text d) 0 = Ret (length (text d), Some sp) /\
  format_len (meaning d) = 10 /\ format_len sp = 8.
Proof.
  exists (Dir [48] [49; 48] None psal_no 100). eexists. split; [|repeat split; reflexivity].
  constructor; cbn; try discriminate; unfold is_conv; try lia; [repeat constructor; unfold is_flag; lia|].
  split; [repeat constructor; unfold is_digit; lia|]. split; [discriminate|vm_compute; discriminate].
Qed.
Print Assumptions C12_width_refuted.

Example ex_directive : let d := Dir [43; 35] [49; 50] (Some [51]) psal_hh 120 in
  well_formed d /\ ~ In 48 (dflags d) /\ ~ In 32 (dflags d) /\ text d = [37; 43; 35; 49; 50; 46; 51; 104; 104; 120] /\
  meaning d = Spec (Flags true false true false false) 12 3 psal_hh 120.
Proof.
  cbn. split; [|repeat split; try reflexivity; lia].
  constructor; cbn; try discriminate; unfold is_conv; try lia.
  - repeat constructor; unfold is_flag; lia.
  - split; [repeat constructor; unfold is_digit; lia|]. split; [discriminate|vm_compute; discriminate].
  - intros p H. inversion H; subst. split; [repeat constructor; unfold is_digit; lia|vm_compute; discriminate].
Qed.

(** C13. For formats without "%%" and without adjacent conversions, supported conversions, fitting
    arguments with strings below 8 characters, and an empty storage. *)
Theorem C13_store_matches_partial : forall ps args, Forall wf_piece ps -> separated ps -> Forall (fun p => p <> PP) ps ->
  Forall supported (conversions ps) -> Forall2 fits (conversions ps) args -> Forall short_string args ->
  exists l, store (format_text ps) [] args = Ret (0, l) /\ length l = length args /\
    forall i d a, nth_error (conversions ps) i = Some d -> nth_error args i = Some a ->
      exists p, nth_error l i = Some p /\ stores d a p.
Proof. exact store_spec. Qed.
Print Assumptions C13_store_matches_partial.

(** "%% %d": '%%' advances the parameter number, the storage has no such parameter: -EFAULT. *)
Theorem C13_percent_refuted : exists ps args, Forall wf_piece ps /\ separated ps /\ Forall2 fits (conversions ps) args /\
  exists l, store (format_text ps) [] args = Ret (-14, l).
Proof.
  exists [PP; Lit [32]; Conv (Dir [] [] None psal_no 100)], [A32 7]. split; [|split; [|split]].
  - wf_pieces.
  - cbn. auto.
  - repeat constructor. exists (Param TInt 4 (CNum 7)). apply (StS32 _ 7 7 TInt 32); try (vm_compute; auto; fail); [|split; [vm_compute; discriminate|reflexivity]].
    exists ([100; 105], [(psal_hh, TChar); (psal_h, TShort); (psal_no, TInt); (psal_l, TLong); (psal_ll, TLLong)]). cbn. auto 10.
  - eexists. vm_compute. reflexivity.
Qed.
Print Assumptions C13_percent_refuted.

(** "%E" and "%lf" are refused. *)
Theorem C13_unsupported_refuted : exists d1 d2 l1 l2, fits d1 (ADbl 7) /\ well_formed d1 /\ store (text d1) [] [ADbl 7] = Ret (-14, l1) /\
  fits d2 (ADbl 7) /\ well_formed d2 /\ store (text d2) [] [ADbl 7] = Ret (-14, l2).
Proof.
  exists (Dir [] [] None psal_no 69), (Dir [] [] None psal_l 102). eexists. eexists.
  assert (D : forall c a, In c [101; 102; 103; 69; 70; 71; 97; 65] -> In a [psal_no; psal_l] -> fits (Dir [] [] None a c) (ADbl 7)).
  { intros c a Hc Ha. exists (Param TDouble 8 (CNum 7)). apply StDbl.
    exists ([101; 102; 103; 69; 70; 71; 97; 65], [(psal_no, TDouble); (psal_l, TDouble); (psal_L, TLDouble)]).
    split; [cbn; auto 10|]. split; [exact Hc|]. cbn in Ha |- *. destruct Ha as [<-|[<-|[]]]; auto. }
  split; [apply D; cbn; auto 10|]. split; [apply wf_simple; [constructor|unfold is_conv; lia]|]. split; [vm_compute; reflexivity|].
  split; [apply D; cbn; auto 10|]. split; [apply wf_simple; [constructor|unfold is_conv; lia]|]. vm_compute; reflexivity.
Qed.
Print Assumptions C13_unsupported_refuted.

(** Storing into a storage with an element overwrites that element instead of filling the new one. *)
Theorem C13_nonempty_refuted : exists st, store [37; 100] st [A32 7] =
  Ret (0, [Param TInt 4 (CNum 7); Param TInt 4 CZero]) /\ st = [Param TInt 4 (CNum 1)].
Proof. eexists. split; [|reflexivity]. vm_compute. reflexivity. Qed.
Print Assumptions C13_nonempty_refuted.

(** "x=%hhd %s!" with 300 and "hi": the number is converted to char (44), the string stored with its terminator. *)
Definition ex_store_pieces : list piece := [Lit [120; 61]; Conv (Dir [] [] None psal_hh 100); Lit [32]; Conv (Dir [] [] None psal_no 115); Lit [33]].
Example ex_store_hyps : Forall wf_piece ex_store_pieces /\ separated ex_store_pieces /\ Forall (fun p => p <> PP) ex_store_pieces /\
  Forall supported (conversions ex_store_pieces) /\ Forall2 fits (conversions ex_store_pieces) [A32 300; AStr (Some [104; 105])] /\
  Forall short_string [A32 300; AStr (Some [104; 105])].
Proof.
  split; [|split; [|split; [|split; [|split]]]].
  - unfold ex_store_pieces. wf_pieces.
  - cbn. split; [right; do 3 eexists; reflexivity|]. split; [right; do 3 eexists; reflexivity|exact I].
  - repeat constructor; discriminate.
  - repeat constructor; cbn; lia.
  - cbn. constructor; [|constructor; [|constructor]].
    + exists (Param TChar 1 (CNum 44)). apply (StS32 _ 300 44 TChar 8); [|cbn; auto|reflexivity|split; [vm_compute; discriminate|reflexivity]].
      exists ([100; 105], [(psal_hh, TChar); (psal_h, TShort); (psal_no, TInt); (psal_l, TLong); (psal_ll, TLLong)]). cbn. auto 10.
    + exists (Param (TCharArr 3) 3 (CBytes [104; 105; 0])). apply (StStr _ [104; 105] 3); auto. cbn. lia.
  - repeat constructor; cbn; lia.
Qed.
Example ex_store_run : store (format_text ex_store_pieces) [] [A32 300; AStr (Some [104; 105])] =
  Ret (0, [Param TChar 1 (CNum 44); Param (TCharArr 3) 8 (CBytes [104; 105; 0])]).
Proof. vm_compute. reflexivity. Qed.

(** C14. The buffer has the size of a pointer: the copy fits exactly for strings below 8 characters. *)
Theorem C14_string_fits_partial : forall b, Forall (fun c => c <> 0) b ->
  (exists x, store [37; 115] [] [AStr (Some b)] = Ret x) <-> (length b < 8)%nat.
Proof. exact string_copy_store. Qed.
Print Assumptions C14_string_fits_partial.

(** At any position of any storage, for any %s conversion. *)
Theorem C14_string_fits_anywhere_partial : forall st b r sp, t sp = 115 ->
  (exists x, store_one st (AStr (Some b) :: r) (length st) sp = Ret x) <-> (length b < 8)%nat.
Proof. exact string_copy. Qed.
Print Assumptions C14_string_fits_anywhere_partial.

(** An 8-character string overflows the buffer. *)
Theorem C14_overflow_refuted : exists b, length b = 8%nat /\ store [37; 115] [] [AStr (Some b)] = HeapOverflow.
Proof. exists (repeat 97 8). split; vm_compute; reflexivity. Qed.
Print Assumptions C14_overflow_refuted.
