(** Property C56: calls of printf-like functions. *)
From Coq Require Import ZArith String List Bool Lia Arith.
From Verif Require Import Base EntryModel EntrySpec CdeclModel PStorModel PStorSpec WrapModel WrapSpec VprintfModel VprintfSpec VprintfProof VprintfProof2.
From Verif Require PrintfModel PrintfSpec.
Import ListNotations.
Open Scope Z_scope.

(** * C56: the arguments a format string announces are captured *)
Theorem C56_stores : forall demote tref cstr h s ps args xs, heap_ok h -> stores h s [] -> usable ps -> prints tref cstr (PrintfSpec.conversions ps) args xs -> tidy h xs ->
  exists z h' l', store_vprintf demote tref cstr h s (PrintfSpec.format_text ps) args = Ret (z, h') /\ later h h' /\ goes h h' s [] l' /\
    (z = 0 -> map shape_of l' = xs) /\ (no_oom h -> z = 0).
Proof. exact (fun demote tref cstr h s ps args xs A B C D E => store_ok demote tref cstr h s [] ps args xs A B C D E eq_refl). Qed.
Print Assumptions C56_stores.

Theorem C56_unknown : forall demote tref cstr h s ps args xs, heap_ok h -> stores h s [] -> regular_format ps -> breaks tref cstr (PrintfSpec.conversions ps) args xs -> tidy h xs ->
  exists h' l', store_vprintf demote tref cstr h s (PrintfSpec.format_text ps) args = Ret (- EFAULT, h') /\ later h h' /\ goes h h' s [] l'.
Proof. exact store_breaks. Qed.
Print Assumptions C56_unknown.

(** as the handler of a variadic parameter it does what C54 asks of handlers *)
Theorem C56_handler : forall demote tref cstr n d f e pl before r r0 b args xs, acyclic d n -> final_type d (Some f) (Some e) -> fun_params (e_info (deref d e)) pl -> (S (length before) < length pl)%nat ->
  good_format tref cstr d r0 b args xs -> gathers (stringless xs) f (handle_printf_format demote tref cstr (n + 3) d) (before ++ [SBuf (inl r0) b]) r args xs.
Proof. exact (fun demote tref cstr n d f e pl before r r0 b args xs AC => handle_gathers demote tref cstr n d AC f e pl before r r0 b args xs). Qed.
Print Assumptions C56_handler.

Theorem C56_handler_refuses : forall demote tref cstr n d f e pl before r r0 b args xs, acyclic d n -> final_type d (Some f) (Some e) -> fun_params (e_info (deref d e)) pl -> (S (length before) < length pl)%nat ->
  bad_format tref cstr d r0 b args xs -> refuses (stringless xs) f (handle_printf_format demote tref cstr (n + 3) d) (before ++ [SBuf (inl r0) b]) r args.
Proof. exact (fun demote tref cstr n d f e pl before r r0 b args xs AC => handle_refuses demote tref cstr n d AC f e pl before r r0 b args xs). Qed.
Print Assumptions C56_handler_refuses.

(** a whole call: captured, and everything released by deleting it *)
Theorem C56_call : forall demote tref cstr n d nc promote va_fn tags h en v h1 e l r r0 b args0 args1 args xs0 items, acyclic d n -> (forall b, length b = 4%nat -> demote (promote b) = b) ->
  tidy h items -> heap_ok h -> new_call_params h en = (Some v, h1) ->
  final_type d (Some en) (Some e) -> fun_params (e_info (deref d e)) (l ++ [r]) -> values d nc promote va_fn l args0 (xs0 ++ [SBuf (inl r0) b]) ->
  variadic_args d nc r args0 args1 args -> handler tags r (handle_printf_format demote tref cstr (n + 3) d) -> good_format tref cstr d r0 b args1 items ->
  exists o h2, parameter_wrap (n + 3) nc d demote va_fn tags h1 (Some v) args = Ret (o, h2) /\ later h h2 /\
   match o with
   | Some v' => v' = v /\ (exists l', stores h2 (vl_addr v) l' /\ map shape_of l' = xs0 ++ [SBuf (inl r0) b; SStor (inl r) items]) /\
                exists h3, call_params_delete h2 o = Ret h3 /\ forall q, h_blk h3 q = h_blk h q
   | None => ~ no_oom h
   end.
Proof. exact (fun demote tref cstr n d nc promote va_fn tags h en v h1 e l r r0 b args0 args1 args xs0 items AC PD => printf_call demote tref cstr n d AC nc promote va_fn tags PD h en v h1 e l r r0 b args0 args1 args xs0 items). Qed.
Print Assumptions C56_call.

Theorem C56_call_refused : forall demote tref cstr n d nc promote va_fn tags h en v h1 e l r r0 b args0 args1 args xs0 items, acyclic d n -> (forall b, length b = 4%nat -> demote (promote b) = b) ->
  tidy h items -> heap_ok h -> new_call_params h en = (Some v, h1) ->
  final_type d (Some en) (Some e) -> fun_params (e_info (deref d e)) (l ++ [r]) -> values d nc promote va_fn l args0 (xs0 ++ [SBuf (inl r0) b]) ->
  variadic_args d nc r args0 args1 args -> handler tags r (handle_printf_format demote tref cstr (n + 3) d) -> bad_format tref cstr d r0 b args1 items ->
  exists h2 h3, parameter_wrap (n + 3) nc d demote va_fn tags h1 (Some v) args = Ret (None, h2) /\ delete (h_next h2) h2 (vl_addr v) = Ret h3 /\ forall q, h_blk h3 q = h_blk h q.
Proof. exact (fun demote tref cstr n d nc promote va_fn tags h en v h1 e l r r0 b args0 args1 args xs0 items AC PD => printf_fails demote tref cstr n d AC nc promote va_fn tags PD h en v h1 e l r r0 b args0 args1 args xs0 items). Qed.
Print Assumptions C56_call_refused.

(** Examples: 0 int, 1 char, 2 char *, 3 long int, 4 void *, 5 the parameter k of type int, 6 fmt of type char *, 7 the ellipsis; 8 is
    int p(int k, char *fmt, ...); 9 is int z(int k, ...) *)
Definition vdb : db := fun r => nth r
  [Build_entry (Some "int"%string) false (IBase 4 5); Build_entry (Some "char"%string) false (IBase 1 6); Build_entry None false (IPointer (Some 1%nat));
   Build_entry (Some "long int"%string) false (IBase 8 5); Build_entry None false (IPointer None);
   Build_entry (Some "k"%string) false (IParam false (Some 0%nat)); Build_entry (Some "fmt"%string) false (IParam false (Some 2%nat)); Build_entry None false (IParam true None);
   Build_entry (Some "p"%string) false (ISubprogram (Some 0%nat) [5; 6; 7]%nat); Build_entry (Some "z"%string) false (ISubprogram (Some 0%nat) [5; 7]%nat)]
  (Build_entry None false (IOther 0)).
Definition vref (ty : PrintfModel.ctype) : ref :=
  match ty with PrintfModel.TInt => 0 | PrintfModel.TChar => 1 | PrintfModel.TCharP => 2 | PrintfModel.TLong => 3 | PrintfModel.TVoidP => 4 | _ => 9 end%nat.
Import PrintfSpec.
(** 16: "k=%d %ld <%s>"; 32: "abc"; 48: "%E"; 64: "%%%d"; 80: "%s"; 96: "12345678" *)
Definition vps : list piece :=
  [Lit [107; 61]; Conv (Dir [] [] None PrintfModel.psal_no 100); Lit [32]; Conv (Dir [] [] None PrintfModel.psal_l 100); Lit [32; 60]; Conv (Dir [] [] None PrintfModel.psal_no 115); Lit [62]].
Definition vstr (p : Z) : option (list Z) :=
  if p =? 16 then Some (format_text vps) else if p =? 32 then Some [97; 98; 99] else if p =? 48 then Some (format_text [Conv (Dir [] [] None PrintfModel.psal_no 69)])
  else if p =? 64 then Some [37; 37; 37; 100] else if p =? 80 then Some [37; 115] else if p =? 96 then Some [49; 50; 51; 52; 53; 54; 55; 56] else None.
Definition vdemote (b : list Z) : list Z := skipn 4 b.
Definition vpromote (b : list Z) : list Z := [0; 0; 0; 0] ++ b.
Lemma vdemotes : forall b, length b = 4%nat -> vdemote (vpromote b) = b. Proof. reflexivity. Qed.
Definition vheap (ok : nat -> bool) : heap := Build_heap 1%nat ok (fun _ => None).
Lemma vheap_ok : forall ok, heap_ok (vheap ok). Proof. intros ok. split; [cbn; lia|]. split; reflexivity. Qed.
Lemma vacyclic : acyclic vdb 3.
Proof. exists (fun r => match r with 2 | 4 => 1 | 5 | 6 => 2 | _ => 0 end)%nat. split.
  - intros r. do 7 (destruct r as [|r]; [cbn; lia|]). destruct r; cbn; lia.
  - intros r t H. do 10 (destruct r as [|r]; [cbn in H; destruct H as [(q & S)|[(c & H)|H]]; try discriminate; inversion S; subst; cbn; lia|]).
    destruct r; cbn in H; destruct H as [(q & S)|[(c & H)|H]]; try discriminate; inversion S.
Qed.
Definition vhandle := handle_printf_format vdemote vref vstr (3 + 3) vdb.
Definition vtags : option (ref -> option va_handler) := Some (fun r => if Nat.eqb r 7 then Some vhandle else None).
(** for the examples: what a run produced *)
Definition vnew (ok : nat -> bool) : option val * heap := new_call_params (vheap ok) (St 8%nat).
Definition vval (ok : nat -> bool) : val := match fst (vnew ok) with Some v => v | None => Build_val null (St 8%nat) null end.
Definition vrun (ok : nat -> bool) (a : list arg) : res (option val * heap) := parameter_wrap (3 + 3) 10 vdb vdemote (fun _ => false) vtags (snd (vnew ok)) (Some (vval ok)) a.
Definition vheap_of (r : res (option val * heap)) : heap := match r with Ret (_, h) => h | _ => vheap (fun _ => false) end.
Definition vnone (r : res (option val * heap)) : bool := match r with Ret (None, _) => true | _ => false end.
Lemma vnew_ok : forall ok, (match fst (vnew ok) with Some _ => true | None => false end) = true -> new_call_params (vheap ok) (St 8%nat) = (Some (vval ok), snd (vnew ok)).
Proof. intros ok. unfold vval, vnew. destruct (new_call_params _ _) as [[v|] h]; [reflexivity|discriminate]. Qed.
Lemma vrun_none : forall ok a, vnone (vrun ok a) = true -> parameter_wrap (3 + 3) 10 vdb vdemote (fun _ => false) vtags (snd (vnew ok)) (Some (vval ok)) a = Ret (None, vheap_of (vrun ok a)).
Proof. intros ok a. unfold vrun. destruct (parameter_wrap _ _ _ _ _ _ _ _ _) as [[[v|] h]| | |]; try discriminate; reflexivity. Qed.
Ltac parm := exists []; eapply (res_step vdb _ _ None []); [apply sf_param|apply res_stop; intros ? ? X; inversion X].
Ltac fin := exists []; apply res_stop; intros ? ? X; inversion X.
Ltac ord := split; [reflexivity|split; [intros (s & E & V); vm_compute in E; injection E as <-; destruct V; discriminate|eexists; vm_compute; reflexivity]].
Lemma vwf : forall a c, is_conv c -> well_formed (Dir [] [] None a c).
Proof. intros a c H. constructor; cbn; auto. split; [constructor|]. split; [discriminate|vm_compute; discriminate]. discriminate. Qed.
Lemma vusable : usable vps.
Proof.
  split; [split; [|split]|].
  - repeat (apply Forall_cons; [first [apply vwf; unfold is_conv; lia|cbn; repeat (apply Forall_cons; [lia|]); apply Forall_nil]|]). apply Forall_nil.
  - cbn. repeat split; auto; right; eauto.
  - repeat (apply Forall_cons; [discriminate|]). apply Forall_nil.
  - cbn. repeat (apply Forall_cons; [split; cbn; intros X; lia|]). apply Forall_nil.
Qed.
Definition vargs : list arg := [Arg CInt (le_bytes 4 (-2)); Arg CLong (le_bytes 8 70000); Arg CPtr (le_bytes 8 32)].
Definition vitems : list shape :=
  [SBuf (inl 0%nat) [254; 255; 255; 255]; SBuf (inl 3%nat) [112; 17; 1; 0; 0; 0; 0; 0];
   SBuf (inr (Build_entry None false (IArray (Some 1%nat) 4))) [97; 98; 99; 0; 0; 0; 0; 0]].
Lemma vgood : good_format vref vstr vdb 6%nat (le_bytes 8 16) vargs vitems.
Proof.
  apply (gf_text _ _ _ _ 2%nat (Some 1%nat) 16 vps).
  - parm.
  - reflexivity.
  - lia.
  - reflexivity.
  - exact vusable.
  - cbn [conversions vps flat_map app]. apply pr_next; [|apply pr_next; [|apply pr_next; [|apply pr_end]]].
    + apply (pr_value vref vstr _ PrintfModel.TInt [254; 255; 255; 255]). exists (nth 0 table ([], [])). cbn; tauto. apply (ke_int PrintfModel.TInt 4 (-2)). cbn; tauto.
    + apply (pr_value vref vstr _ PrintfModel.TLong [112; 17; 1; 0; 0; 0; 0; 0]). exists (nth 0 table ([], [])). cbn; tauto. apply (ke_long PrintfModel.TLong 70000). cbn; tauto.
    + apply (pr_string vref vstr _ 32 [97; 98; 99]); try reflexivity. lia. cbn. lia.
Qed.
Lemma vvalues : values vdb 10 vpromote (fun _ => false) [5; 6]%nat [Arg CInt [7; 0; 0; 0]; Arg CPtr (le_bytes 8 16)] [SBuf (inl 5%nat) [7; 0; 0; 0]; SBuf (inl 6%nat) (le_bytes 8 16)].
Proof.
  apply (va_next _ _ _ _ 5%nat 0%nat); [ord| |]. { apply (ps_base _ _ _ _ 0%nat "int"%string 4 5); try reflexivity; [fin|]. apply (ar_int vpromote). reflexivity. }
  apply (va_next _ _ _ _ 6%nat 2%nat); [ord| |constructor]. apply (ps_pointer _ _ _ _ 2%nat (Some 1%nat)); try reflexivity. fin.
Qed.
Definition vcall : list arg := [Arg CInt [7; 0; 0; 0]; Arg CPtr (le_bytes 8 16)] ++ vargs.
(** p(7, "k=%d %ld <%s>", -2, 70000L, "abc") *)
Example C56_call_example : exists v h1 h2 l' h3, new_call_params (vheap (fun _ => true)) (St 8%nat) = (Some v, h1) /\
  fun_params (e_info (deref vdb (St 8%nat))) ([5; 6] ++ [7])%nat /\ variadic_args vdb 10 7%nat [Arg CInt [7; 0; 0; 0]; Arg CPtr (le_bytes 8 16)] vargs vcall /\ handler vtags 7%nat vhandle /\
  good_format vref vstr vdb 6%nat (le_bytes 8 16) vargs vitems /\
  parameter_wrap (3 + 3) 10 vdb vdemote (fun _ => false) vtags h1 (Some v) vcall = Ret (Some v, h2) /\
  PStorSpec.stores h2 (vl_addr v) l' /\ map shape_of l' = [SBuf (inl 5%nat) [7; 0; 0; 0]; SBuf (inl 6%nat) (le_bytes 8 16); SStor (inl 7%nat) vitems] /\
  call_params_delete h2 (Some v) = Ret h3 /\ forall q, h_blk h3 q = None.
Proof.
  destruct (new_call_params (vheap (fun _ => true)) (St 8%nat)) as [[v|] h1] eqn:E; [|vm_compute in E; discriminate].
  assert (F : final_type vdb (Some (St 8%nat)) (Some (St 8%nat))) by fin.
  assert (P : fun_params (e_info (deref vdb (St 8%nat))) ([5; 6] ++ [7])%nat) by (left; eexists; reflexivity).
  assert (V : variadic_args vdb 10 7%nat [Arg CInt [7; 0; 0; 0]; Arg CPtr (le_bytes 8 16)] vargs vcall) by (left; split; [exists None|]; reflexivity).
  assert (H : handler vtags 7%nat vhandle) by (eexists; split; reflexivity).
  assert (VT : tidy (vheap (fun _ => true)) vitems) by (left; intros n _; reflexivity).
  destruct (C56_call vdemote vref vstr 3 vdb 10 vpromote (fun _ => false) vtags _ (St 8%nat) v h1 (St 8%nat) [5; 6]%nat 7%nat 6%nat (le_bytes 8 16) _ vargs vcall [SBuf (inl 5%nat) [7; 0; 0; 0]] vitems
    vacyclic vdemotes VT (vheap_ok _) E F P vvalues V H vgood) as (o & h2 & W & L & D).
  destruct o as [v'|]; [|exfalso; apply D; intros n _; reflexivity]. destruct D as (-> & (l' & S1 & S2) & h3 & D1 & D2). exists v, h1, h2, l', h3. split; [reflexivity|]. pose proof vgood as G. repeat (split; [assumption|]). exact D2.
Qed.
(** p(7, "%E", ...) is refused *)
Example C56_refused_example : bad_format vref vstr vdb 6%nat (le_bytes 8 48) [] [] /\ bad_format vref vstr vdb 6%nat (le_bytes 8 0) [] [] /\ bad_format vref vstr vdb 5%nat [7; 0; 0; 0] [] [] /\
  exists v h1 h2, new_call_params (vheap (fun _ => true)) (St 8%nat) = (Some v, h1) /\
   parameter_wrap (3 + 3) 10 vdb vdemote (fun _ => false) vtags h1 (Some v) [Arg CInt [7; 0; 0; 0]; Arg CPtr (le_bytes 8 48); Arg CDouble (repeat 0 8)] = Ret (None, h2).
Proof.
  split; [|split; [|split]].
  - apply (bf_text _ _ _ _ 2%nat (Some 1%nat) 48 [Conv (Dir [] [] None PrintfModel.psal_no 69)]); try reflexivity.
    + parm.
    + lia.
    + split; [|split]. repeat constructor; cbn; auto; try lia; discriminate. cbn; auto. repeat constructor. discriminate.
    + apply br_here. split. cbn. lia. intros ty _ (K & _). apply K. cbn. auto.
  - apply (bf_null _ _ _ _ 2%nat (Some 1%nat)); try reflexivity. parm.
  - apply (bf_type _ _ _ _ _ _ (St 0%nat)). parm. discriminate.
  - eexists _, _, _. split; [apply vnew_ok; vm_compute; reflexivity|apply vrun_none; vm_compute; reflexivity].
Qed.

(** The full statement is false. A percent sign in the format: the call is refused though memory is not short. *)
Theorem C56_percent_refuted : exists v h1 h2, new_call_params (vheap (fun _ => true)) (St 8%nat) = (Some v, h1) /\
  vstr 64 = Some (format_text [PP; Conv (Dir [] [] None PrintfModel.psal_no 100)]) /\
  parameter_wrap (3 + 3) 10 vdb vdemote (fun _ => false) vtags h1 (Some v) [Arg CInt [7; 0; 0; 0]; Arg CPtr (le_bytes 8 64); Arg CInt [1; 0; 0; 0]] = Ret (None, h2).
Proof. eexists _, _, _. split; [apply vnew_ok; vm_compute; reflexivity|]. split; [vm_compute; reflexivity|apply vrun_none; vm_compute; reflexivity]. Qed.
Print Assumptions C56_percent_refuted.
(** A string of 8 characters: its buffer is overrun. *)
Theorem C56_string_refuted : exists v h1, new_call_params (vheap (fun _ => true)) (St 8%nat) = (Some v, h1) /\ vstr 96 = Some [49; 50; 51; 52; 53; 54; 55; 56] /\
  parameter_wrap (3 + 3) 10 vdb vdemote (fun _ => false) vtags h1 (Some v) [Arg CInt [7; 0; 0; 0]; Arg CPtr (le_bytes 8 80); Arg CPtr (le_bytes 8 96)] = Ub.
Proof. eexists _, _. split; [apply vnew_ok; vm_compute; reflexivity|]. split; vm_compute; reflexivity. Qed.
Print Assumptions C56_string_refuted.
(** Memory is short while a string is captured: the entry made for it stays allocated when everything has been deleted. *)
Theorem C56_leak_refuted : exists ok v h1 h2 h3 q, new_call_params (vheap ok) (St 8%nat) = (Some v, h1) /\
  parameter_wrap (3 + 3) 10 vdb vdemote (fun _ => false) vtags h1 (Some v) [Arg CInt [7; 0; 0; 0]; Arg CPtr (le_bytes 8 80); Arg CPtr (le_bytes 8 32)] = Ret (None, h2) /\
  delete (h_next h2) h2 (vl_addr v) = Ret h3 /\ h_blk h3 q <> None.
Proof.
  set (ok := fun n => negb (Nat.eqb n 14)). set (a := [Arg CInt [7; 0; 0; 0]; Arg CPtr (le_bytes 8 80); Arg CPtr (le_bytes 8 32)]).
  assert (D : match delete (h_next (vheap_of (vrun ok a))) (vheap_of (vrun ok a)) (vl_addr (vval ok)) with Ret h3 => match h_blk h3 13%nat with Some _ => true | None => false end | _ => false end = true) by (vm_compute; reflexivity).
  destruct (delete (h_next (vheap_of (vrun ok a))) (vheap_of (vrun ok a)) (vl_addr (vval ok))) as [h3| | |] eqn:E; try discriminate D.
  exists ok, (vval ok), (snd (vnew ok)), (vheap_of (vrun ok a)), h3, 13%nat. split; [apply vnew_ok; vm_compute; reflexivity|]. split; [apply vrun_none; vm_compute; reflexivity|]. split; [exact E|].
  destruct (h_blk h3 13%nat); discriminate.
Qed.
Print Assumptions C56_leak_refuted.
