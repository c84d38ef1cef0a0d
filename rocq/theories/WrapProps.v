(** Properties C54 and C55: calls whose arguments are captured. *)
From Coq Require Import ZArith String List Bool Lia Arith.
From Verif Require Import Base EntryModel EntrySpec CdeclModel CdeclSpec PStorModel PStorSpec PStorProof WrapModel WrapSpec WrapProof WrapProof2.
Import ListNotations.
Open Scope Z_scope.

(** * C54: after metac_value_parameter_wrap the storage holds the arguments, parameter by parameter *)
Theorem C54_captures_partial : forall demote n nc d promote va_fn tags oom h v e l args xs, acyclic d n -> (forall b, length b = 4%nat -> demote (promote b) = b) ->
  oom \/ no_oom h -> heap_ok h -> stores h (vl_addr v) [] -> owns h v -> final_type d (Some (vl_entry v)) (Some e) -> fun_params (e_info (deref d e)) l ->
  captured d nc promote va_fn tags oom (vl_entry v) [] l args xs ->
  exists o h', parameter_wrap (n + 3) nc d demote va_fn tags h (Some v) args = Ret (o, h') /\ later h h' /\
   ((o = Some v /\ exists l', goes h h' (vl_addr v) [] l' /\ map shape_of l' = xs) \/
    (o = None /\ ~ no_oom h /\ exists l', goes (without h (vl_block v)) h' (vl_addr v) [] l')).
Proof. exact (fun demote n nc d promote va_fn tags oom h v e l args xs AC PD => wrap_captures demote n nc d promote va_fn tags oom AC PD h v e l args xs). Qed.
Print Assumptions C54_captures_partial.

(** every type that is not va_list makes an ordinary parameter *)
Theorem C54_ordinary : forall d r t T, (forall q, clean (d q)) -> e_info (d r) = IParam false (Some t) -> is_type d (Some (St t)) T ->
  regular T -> plain T -> T <> TName "va_list" -> T <> TPtr (TAggr false "__va_list_tag") ->
  exists k, forall nc, (k <= nc)%nat -> ordinary d nc r t.
Proof. exact ordinary_type. Qed.
Print Assumptions C54_ordinary.

(** * C55: what a call allocates is released *)
Theorem C55_life : forall demote n nc d promote va_fn tags oom h en v h1 e l args xs, acyclic d n -> (forall b, length b = 4%nat -> demote (promote b) = b) ->
  oom \/ no_oom h -> heap_ok h -> new_call_params h en = (Some v, h1) -> final_type d (Some en) (Some e) -> fun_params (e_info (deref d e)) l ->
  captured d nc promote va_fn tags oom en [] l args xs ->
  exists o h2, parameter_wrap (n + 3) nc d demote va_fn tags h1 (Some v) args = Ret (o, h2) /\ later h h2 /\
   match o with
   | Some v' => v' = v /\ (exists l', stores h2 (vl_addr v) l' /\ map shape_of l' = xs) /\ exists h3, call_params_delete h2 o = Ret h3 /\ forall q, h_blk h3 q = h_blk h q
   | None => ~ no_oom h
   end.
Proof. exact (fun demote n nc d promote va_fn tags oom h en v h1 e l args xs AC PD => call_life demote n nc d promote va_fn tags oom AC PD h en v h1 e l args xs). Qed.
Print Assumptions C55_life.

Theorem C55_failure : forall demote n nc d promote va_fn tags oom h v e l args, acyclic d n -> (forall b, length b = 4%nat -> demote (promote b) = b) ->
  oom \/ no_oom h -> heap_ok h -> stores h (vl_addr v) [] -> owns h v -> final_type d (Some (vl_entry v)) (Some e) -> fun_params (e_info (deref d e)) l ->
  stuck d nc promote va_fn tags oom (vl_entry v) [] l args ->
  exists h' l', parameter_wrap (n + 3) nc d demote va_fn tags h (Some v) args = Ret (None, h') /\ later h h' /\ goes (without h (vl_block v)) h' (vl_addr v) [] l'.
Proof. exact (fun demote n nc d promote va_fn tags oom h v e l args AC PD => wrap_fails demote n nc d promote va_fn tags oom AC PD h v e l args). Qed.
Print Assumptions C55_failure.

(** after a failure, deleting the storage leaves the memory as it was *)
Theorem C55_failure_life : forall demote n nc d promote va_fn tags oom h en v h1 e l args, acyclic d n -> (forall b, length b = 4%nat -> demote (promote b) = b) ->
  oom \/ no_oom h -> heap_ok h -> new_call_params h en = (Some v, h1) -> final_type d (Some en) (Some e) -> fun_params (e_info (deref d e)) l ->
  stuck d nc promote va_fn tags oom en [] l args ->
  exists h2 h3, parameter_wrap (n + 3) nc d demote va_fn tags h1 (Some v) args = Ret (None, h2) /\ delete (h_next h2) h2 (vl_addr v) = Ret h3 /\ forall q, h_blk h3 q = h_blk h q.
Proof. exact (fun demote n nc d promote va_fn tags oom h en v h1 e l args AC PD => fail_life demote n nc d promote va_fn tags oom AC PD h en v h1 e l args). Qed.
Print Assumptions C55_failure_life.

Theorem C55_result_life : forall n d h en e t z, acyclic d n -> heap_ok h -> final_type d (Some en) (Some e) ->
  (exists l, e_info (deref d e) = ISubprogram (Some t) l \/ e_info (deref d e) = ISubroutine (Some t) l) -> has_size d (Some (St t)) z -> 0 < z < 2 ^ 64 ->
  exists o h1, new_call_result (n + 3) d h en = Ret (o, h1) /\ later h h1 /\
   match o with
   | None => ~ no_oom h /\ forall q, h_blk h1 q = h_blk h q
   | Some v => vl_entry v = St t /\ get_bytes h1 (vl_addr v) = Ret (repeat 0 (Z.to_nat z)) /\ exists h2, call_result_delete h1 o = Ret h2 /\ forall q, h_blk h2 q = h_blk h q
   end.
Proof. exact (fun n d h en e t z AC => result_life n d AC h en e t z). Qed.
Print Assumptions C55_result_life.

(** Examples: 0 int, 1 char, 2 float, 3 struct P of 6 bytes, 4 int *, 5 enum E of 2 bytes, 6 struct __va_list_tag, 7 pointer to 6;
    16 is int g(char c, float x, struct P p, int *q, enum E e, va_list ap, int k, ...) of the parameters 8 to 15;
    17 struct Q (cannot be read from a va_list), 18 a parameter of type Q, 19 int u(int k, struct Q), 20 int w(va_list, int), 21 int y(int, ...), 22 int i(int) *)
Definition wdb : db := fun r => nth r
  [Build_entry (Some "int"%string) false (IBase 4 5); Build_entry (Some "char"%string) false (IBase 1 6); Build_entry (Some "float"%string) false (IBase 4 4);
   Build_entry (Some "P"%string) false (IAggr AStruct 6 []); Build_entry None false (IPointer (Some 0%nat)); Build_entry (Some "E"%string) false (IEnum 2 []);
   Build_entry (Some "__va_list_tag"%string) false (IAggr AStruct 24 []); Build_entry None false (IPointer (Some 6%nat));
   Build_entry (Some "c"%string) false (IParam false (Some 1%nat)); Build_entry (Some "x"%string) false (IParam false (Some 2%nat)); Build_entry (Some "p"%string) false (IParam false (Some 3%nat));
   Build_entry (Some "q"%string) false (IParam false (Some 4%nat)); Build_entry (Some "e"%string) false (IParam false (Some 5%nat)); Build_entry (Some "ap"%string) false (IParam false (Some 7%nat));
   Build_entry (Some "k"%string) false (IParam false (Some 0%nat)); Build_entry None false (IParam true None);
   Build_entry (Some "g"%string) false (ISubprogram (Some 0%nat) [8; 9; 10; 11; 12; 13; 14; 15]%nat);
   Build_entry (Some "Q"%string) false (IAggr AStruct 6 []); Build_entry None false (IParam false (Some 17%nat));
   Build_entry (Some "u"%string) false (ISubprogram (Some 0%nat) [14; 18]%nat); Build_entry (Some "w"%string) false (ISubprogram (Some 0%nat) [13; 14]%nat);
   Build_entry (Some "y"%string) false (ISubprogram (Some 0%nat) [14; 15]%nat); Build_entry (Some "i"%string) false (ISubprogram (Some 0%nat) [14]%nat)]
  (Build_entry None false (IOther 0)).
Definition wva (r : ref) : bool := Nat.eqb r 3.
Definition wpromote (b : list Z) : list Z := [0; 0; 0; 0] ++ b.
Definition wdemote (b : list Z) : list Z := skipn 4 b.
Lemma wdemotes : forall b, length b = 4%nat -> wdemote (wpromote b) = b. Proof. reflexivity. Qed.
Lemma wacyclic : acyclic wdb 3.
Proof. exists (fun r => match r with 4 | 7 => 1 | 8 | 9 | 10 | 11 | 12 | 13 | 14 | 18 => 2 | _ => 0 end)%nat. split.
  - intros r. do 19 (destruct r as [|r]; [cbn; lia|]). destruct r; cbn; lia.
  - intros r t H. do 23 (destruct r as [|r]; [cbn in H; destruct H as [(q & S)|[(c & H)|H]]; try discriminate; inversion S; subst; cbn; lia|]).
    destruct r; cbn in H; destruct H as [(q & S)|[(c & H)|H]]; try discriminate; inversion S.
Qed.
(** a handler that reads one int *)
Definition whandler : va_handler := fun h f s i a args =>
  match slot h a 0 0%nat 4 with
  | Ret (inl h1) => Ret (-1, h1, args)
  | Ret (inr (h1, p)) => match fetch wdemote h1 p CInt Same args with Ret (h2, rest) => Ret (0, h2, rest) | Ub => Ub | Abort => Abort | OutOfFuel => OutOfFuel end
  | Ub => Ub | Abort => Abort | OutOfFuel => OutOfFuel
  end.
Definition wtags : option (ref -> option va_handler) := Some (fun r => if Nat.eqb r 13 || Nat.eqb r 15 then Some whandler else None).
Lemma wgathers : forall f before r b rest, length b = 4%nat -> gathers True f whandler before r (Arg CInt b :: rest) [SBuf (inl 0%nat) b].
Proof.
  intros f before r b rest LB h s l p a _ HO ST _. assert (SA : stores h a []) by (eapply nested_stores; eauto). unfold whandler.
  destruct (slot_ok h a [] 0%nat 4 HO SA) as [(h1 & E & L & NO & l' & G)|(h1 & q & c & E & L & NN & G)]; [lia| |]; cbn [length Z.of_nat] in E; rewrite E.
  - do 4 eexists. split; [reflexivity|]. split; [exact G|]. split; auto. split; [discriminate|contradiction].
  - destruct (fetch_ok wdemote h1 a [] q 0%nat c (repeat 0 4) CInt Same b rest) as (h2 & E2 & L2 & G2); [apply G|apply G|cbn [convert]; rewrite LB; reflexivity|]. rewrite E2.
    do 4 eexists. split; [reflexivity|]. split; [eapply goes_trans; eauto|]. split; [eapply later_trans; eauto|]. split; reflexivity.
Qed.
Definition wargs : list arg :=
  [Arg CInt (le_bytes 4 (-2)); Arg CDouble (wpromote [1; 2; 3; 4]); Arg (CStruct 3%nat) [1; 2; 3; 4; 5; 6]; Arg CPtr [1; 0; 0; 0; 0; 0; 0; 0]; Arg CInt (le_bytes 4 513);
   ArgList [Arg CInt [9; 9; 9; 9]]; Arg CInt [5; 0; 0; 0]; Arg CInt [7; 7; 7; 7]].
Definition wshapes : list shape :=
  [SBuf (inl 8%nat) [254]; SBuf (inl 9%nat) [1; 2; 3; 4]; SBuf (inl 10%nat) [1; 2; 3; 4; 5; 6]; SBuf (inl 11%nat) [1; 0; 0; 0; 0; 0; 0; 0]; SBuf (inl 12%nat) [1; 2];
   SStor (inl 13%nat) [SBuf (inl 0%nat) [9; 9; 9; 9]]; SBuf (inl 14%nat) [5; 0; 0; 0]; SStor (inl 15%nat) [SBuf (inl 0%nat) [7; 7; 7; 7]]].
Ltac fin := exists []; apply res_stop; intros ? ? X; inversion X.
Ltac ord := split; [reflexivity|split; [intros (s & E & V); vm_compute in E; injection E as <-; destruct V; discriminate|eexists; vm_compute; reflexivity]].
Lemma wcaptured : captured wdb 10 wpromote wva wtags True (St 16%nat) [] [8; 9; 10; 11; 12; 13; 14; 15]%nat wargs wshapes.
Proof.
  apply (cp_value wdb 10 wpromote wva wtags True _ _ _ 1%nat); [ord| |].
  { apply (ps_base _ _ _ _ 1%nat "char"%string 1 6); try reflexivity; [fin|..]. apply (ar_char wpromote (-2)). lia. }
  apply (cp_value wdb 10 wpromote wva wtags True _ _ _ 2%nat); [ord| |].
  { apply (ps_base _ _ _ _ 2%nat "float"%string 4 4); try reflexivity; [fin|..]. apply (ar_float wpromote [1; 2; 3; 4]). reflexivity. }
  apply (cp_value wdb 10 wpromote wva wtags True _ _ _ 3%nat); [ord| |].
  { apply (ps_struct _ _ _ _ 3%nat AStruct 6 []); try reflexivity; [fin|..]. lia. }
  apply (cp_value wdb 10 wpromote wva wtags True _ _ _ 4%nat); [ord| |].
  { apply (ps_pointer _ _ _ _ 4%nat (Some 0%nat)); try reflexivity; [fin|..]. }
  apply (cp_value wdb 10 wpromote wva wtags True _ _ _ 5%nat); [ord| |].
  { apply (ps_enum_small _ _ _ _ 5%nat 2 [] 513 2%nat); try reflexivity; [fin|..]. auto. }
  apply (cp_va_list wdb 10 wpromote wva wtags True _ _ _ _ whandler).
  { exists 7%nat. split. reflexivity. eexists. split. vm_compute. reflexivity. auto. } { eexists. split; reflexivity. } { apply wgathers. reflexivity. }
  apply (cp_value wdb 10 wpromote wva wtags True _ _ _ 0%nat); [ord| |].
  { apply (ps_base _ _ _ _ 0%nat "int"%string 4 5); try reflexivity; [fin|..]. apply (ar_int wpromote). reflexivity. }
  apply (cp_dots wdb 10 wpromote wva wtags True _ _ _ whandler).
  { exists None. reflexivity. } { eexists. split; reflexivity. } { apply wgathers. reflexivity. }
Qed.
Definition heap0 (ok : nat -> bool) : heap := Build_heap 1 ok (fun _ => None).
Lemma heap0_ok : forall ok, heap_ok (heap0 ok). Proof. intros ok. repeat split; cbn; auto; lia. Qed.
Example C54_example : exists v h1 h2,
  acyclic wdb 3 /\ (forall b, length b = 4%nat -> wdemote (wpromote b) = b) /\ heap_ok h1 /\ stores h1 (vl_addr v) [] /\ owns h1 v /\ vl_entry v = St 16%nat /\
  final_type wdb (Some (St 16%nat)) (Some (St 16%nat)) /\ fun_params (e_info (deref wdb (St 16%nat))) [8; 9; 10; 11; 12; 13; 14; 15]%nat /\
  captured wdb 10 wpromote wva wtags True (St 16%nat) [] [8; 9; 10; 11; 12; 13; 14; 15]%nat wargs wshapes /\
  new_call_params (heap0 (fun _ => true)) (St 16%nat) = (Some v, h1) /\
  parameter_wrap (3 + 3) 10 wdb wdemote wva wtags h1 (Some v) wargs = Ret (Some v, h2) /\
  exists h3, call_params_delete h2 (Some v) = Ret h3.
Proof.
  destruct (new_call_params (heap0 (fun _ => true)) (St 16%nat)) as (o, h1) eqn:E. assert (E2 := E). vm_compute in E2. injection E2 as <- <-.
  match type of E with _ = (Some ?w, ?h) => set (v := w) in *; set (h1 := h) in * end. destruct (new_call_ok _ _ _ _ (heap0_ok _) E) as (HO & _ & EN & ST & OW & _).
  assert (F : final_type wdb (Some (St 16%nat)) (Some (St 16%nat))) by fin.
  assert (P : fun_params (e_info (deref wdb (St 16%nat))) [8; 9; 10; 11; 12; 13; 14; 15]%nat) by (left; eexists; reflexivity).
  destruct (C55_life wdemote 3 10 wdb wpromote wva wtags True _ _ _ _ (St 16%nat) _ wargs wshapes wacyclic wdemotes (or_introl I) (heap0_ok _) E F P wcaptured) as (o & h2 & W & L & D). destruct o as [v'|].
  - destruct D as (-> & _ & h3 & D & _). exists v, h1, h2. repeat (split; [solve [auto using wacyclic, wcaptured]|]). eauto.
  - exfalso. apply D. intros k _. reflexivity.
Qed.
(** a call that cannot be captured: no tag map for the ellipsis of y *)
Example C55_failure_example : exists v h1,
  new_call_params (heap0 (fun _ => true)) (St 21%nat) = (Some v, h1) /\ final_type wdb (Some (St 21%nat)) (Some (St 21%nat)) /\
  fun_params (e_info (deref wdb (St 21%nat))) [14; 15]%nat /\ stuck wdb 10 wpromote wva None True (St 21%nat) [] [14; 15]%nat [Arg CInt [5; 0; 0; 0]; Arg CInt [7; 7; 7; 7]] /\
  exists h2, parameter_wrap (3 + 3) 10 wdb wdemote wva None h1 (Some v) [Arg CInt [5; 0; 0; 0]; Arg CInt [7; 7; 7; 7]] = Ret (None, h2) /\
  h_blk h2 (vl_block v) = None /\ h_blk h2 (vl_addr v) <> None.
Proof.
  do 2 eexists. split; [vm_compute; reflexivity|]. split; [fin|]. split; [left; eexists; reflexivity|]. split.
  { apply (st_value wdb 10 wpromote wva None True _ _ _ 0%nat _ _ _ [5; 0; 0; 0]); [ord| |].
    apply (ps_base _ _ _ _ 0%nat "int"%string 4 5); try reflexivity; [fin|]. apply (ar_int wpromote). reflexivity.
    apply st_here. apply un_no_tags; auto. right. exists None. reflexivity. }
  eexists. split; [vm_compute; reflexivity|]. vm_compute. split; [reflexivity|discriminate].
Qed.
Example C55_result_example : exists v h1 h2, final_type wdb (Some (St 16%nat)) (Some (St 16%nat)) /\ has_size wdb (Some (St 0%nat)) 4 /\
  e_info (deref wdb (St 16%nat)) = ISubprogram (Some 0%nat) [8; 9; 10; 11; 12; 13; 14; 15]%nat /\
  new_call_result (3 + 3) wdb (heap0 (fun _ => true)) (St 16%nat) = Ret (Some v, h1) /\ get_bytes h1 (vl_addr v) = Ret [0; 0; 0; 0] /\ call_result_delete h1 (Some v) = Ret h2.
Proof.
  do 3 eexists. split; [fin|]. split; [eapply hs_base; reflexivity|]. split; [reflexivity|]. split; [vm_compute; reflexivity|]. split; vm_compute; reflexivity.
Qed.

(** The full statements are false. A storage already in use: the value is written into an older parameter, and the new one stays
    empty. *)
Theorem C54_reused_storage_refuted : exists v h s0 h1 h2 x b,
  new_call_params (heap0 (fun _ => true)) (St 22%nat) = (Some v, h) /\ append_by_buffer h (vl_addr v) (Some (EStatic 14%nat)) 4 = Ret (0, h1) /\
  stores h1 (vl_addr v) s0 /\ map shape_of s0 = [x] /\ captured wdb 10 wpromote wva wtags True (St 22%nat) [] [14%nat] [Arg CInt b] [SBuf (inl 14%nat) b] /\
  parameter_wrap (3 + 3) 10 wdb wdemote wva wtags h1 (Some v) [Arg CInt b] = Ret (Some v, h2) /\
  exists l', stores h2 (vl_addr v) l' /\ map shape_of l' <> map shape_of s0 ++ [SBuf (inl 14%nat) b].
Proof.
  exists (Build_val 2%nat (St 22%nat) 1%nat).
  set (h := snd (new_call_params (heap0 (fun _ => true)) (St 22%nat))).
  exists h, [NBuf 4%nat (PStatic 14%nat) 3%nat [0; 0; 0; 0]].
  set (h1 := match append_by_buffer h 1%nat (Some (EStatic 14%nat)) 4 with Ret (_, h1) => h1 | _ => h end). exists h1.
  set (h2 := match parameter_wrap (3 + 3) 10 wdb wdemote wva wtags h1 (Some (Build_val 2%nat (St 22%nat) 1%nat)) [Arg CInt [1; 2; 3; 4]] with Ret (_, h2) => h2 | _ => h end). exists h2, (SBuf (inl 14%nat) [0; 0; 0; 0]), [1; 2; 3; 4].
  split; [vm_compute; reflexivity|]. split; [vm_compute; reflexivity|].
  split. { split; [discriminate|]. split; [vm_compute; reflexivity|]. split; [vm_compute; repeat split; discriminate|]. vm_compute. repeat constructor; intros H; repeat destruct H as [H|H]; try discriminate; contradiction. }
  split; [reflexivity|]. split.
  { apply (cp_value wdb 10 wpromote wva wtags True _ _ _ 0%nat); [ord| |constructor]. apply (ps_base _ _ _ _ 0%nat "int"%string 4 5); try reflexivity; [fin|]. apply (ar_int wpromote). reflexivity. }
  split; [vm_compute; reflexivity|].
  exists [NBuf 4%nat (PStatic 14%nat) 3%nat [1; 2; 3; 4]; NBuf 6%nat (PStatic 14%nat) 5%nat [0; 0; 0; 0]]. split; [|discriminate].
  split; [discriminate|]. split; [vm_compute; reflexivity|]. split; [vm_compute; repeat split; discriminate|]. vm_compute. repeat constructor; intros H; repeat destruct H as [H|H]; try discriminate; contradiction.
Qed.
Print Assumptions C54_reused_storage_refuted.

(** A va_list parameter without a handler is not taken from the argument list: the next parameter is read from it. *)
Theorem C54_va_list_unhandled_refuted : exists v h1 (tags : option (ref -> option va_handler)), new_call_params (heap0 (fun _ => true)) (St 20%nat) = (Some v, h1) /\ tags <> None /\ e_info (wdb 20%nat) = ISubprogram (Some 0%nat) [13; 14]%nat /\ va_list_param wdb 10 13%nat /\ passes wdb wpromote wva 0%nat [5; 0; 0; 0] (Arg CInt [5; 0; 0; 0]) /\ parameter_wrap (3 + 3) 10 wdb wdemote wva tags h1 (Some v) [ArgList []; Arg CInt [5; 0; 0; 0]] = Ub.
Proof.
  do 2 eexists. exists (Some (fun _ => None)). split; [vm_compute; reflexivity|]. split; [discriminate|]. split; [reflexivity|].
  split. { exists 7%nat. split. reflexivity. eexists. split. vm_compute. reflexivity. auto. }
  split; [|vm_compute; reflexivity]. apply (ps_base _ _ _ _ 0%nat "int"%string 4 5); try reflexivity; [fin|]. apply (ar_int wpromote). reflexivity.
Qed.
Print Assumptions C54_va_list_unhandled_refuted.

(** A struct without a function to read it: its buffer is released while the storage still refers to it; releasing the storage
    releases it again. *)
Theorem C55_struct_double_free_refuted : exists v h1 h2, new_call_params (heap0 (fun _ => true)) (St 19%nat) = (Some v, h1) /\ e_info (wdb 19%nat) = ISubprogram (Some 0%nat) [14; 18]%nat /\ ordinary wdb 10 18%nat 17%nat /\ e_info (wdb 17%nat) = IAggr AStruct 6 [] /\ wva 17%nat = false /\ parameter_wrap (3 + 3) 10 wdb wdemote wva wtags h1 (Some v) [Arg CInt [5; 0; 0; 0]; Arg (CStruct 17%nat) [1; 2; 3; 4; 5; 6]] = Ret (None, h2) /\ delete (h_next h2) h2 (vl_addr v) = Ub.
Proof.
  do 3 eexists. split; [vm_compute; reflexivity|]. split; [reflexivity|]. split; [ord|]. split; [reflexivity|]. split; [reflexivity|]. split; vm_compute; reflexivity.
Qed.
Print Assumptions C55_struct_double_free_refuted.

(** An ellipsis without handler: the call succeeds but the value made for the handler is never released. *)
Theorem C55_value_leak_refuted : exists v h1 h2 h3 q, new_call_params (heap0 (fun _ => true)) (St 21%nat) = (Some v, h1) /\ parameter_wrap (3 + 3) 10 wdb wdemote wva (Some (fun _ => None)) h1 (Some v) [Arg CInt [5; 0; 0; 0]; Arg CInt [7; 7; 7; 7]] = Ret (Some v, h2) /\ call_params_delete h2 (Some v) = Ret h3 /\ h_blk h3 q <> None.
Proof.
  do 4 eexists. exists 8%nat. split; [vm_compute; reflexivity|]. split; [vm_compute; reflexivity|]. split; [vm_compute; reflexivity|]. vm_compute. discriminate.
Qed.
Print Assumptions C55_value_leak_refuted.

(** A call whose value is made in place, as in examples/c_ffi_call/value_ffi.h:4-5: when the wrap fails its result is NULL, which
    metac_value_with_call_params_delete does not accept, and the storage stays allocated. *)
Theorem C55_storage_leak_refuted : exists v h1 h2, new_call_params (heap0 (fun _ => true)) (St 21%nat) = (Some v, h1) /\ parameter_wrap (3 + 3) 10 wdb wdemote wva None h1 (Some v) [Arg CInt [5; 0; 0; 0]] = Ret (None, h2) /\ h_blk h2 (vl_addr v) <> None /\ call_params_delete h2 None = Ub.
Proof. do 3 eexists. split; [vm_compute; reflexivity|]. split; [vm_compute; reflexivity|]. split; [vm_compute; discriminate|reflexivity]. Qed.
Print Assumptions C55_storage_leak_refuted.

(** The storage is left allocated when there is no memory for the value. *)
Theorem C55_new_leak_refuted : exists ok h1 q, new_call_params (heap0 ok) (St 21%nat) = (None, h1) /\ h_blk (heap0 ok) q = None /\ h_blk h1 q <> None.
Proof. exists (fun k => Nat.eqb k 1). do 2 eexists. split; [vm_compute; reflexivity|]. split; [reflexivity|]. instantiate (1 := 1%nat). vm_compute. discriminate. Qed.
Print Assumptions C55_new_leak_refuted.
