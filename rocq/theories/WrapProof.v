(** Proofs about wrapping a call: one parameter. *)
From Coq Require Import ZArith String List Bool Lia ZifyBool Arith.
From Verif Require Import Base EntryModel EntrySpec EntryProof ValueProof2 CdeclModel HandlerModel PStorModel PStorSpec PStorProof WrapModel WrapSpec.
Import ListNotations.
Open Scope Z_scope.

Lemma goes_evolves : forall h h' s l l', goes h h' s l l' <-> evolves h h' s l l'.
Proof. intros. reflexivity. Qed.
Lemma goes_ext : forall h h1 h2 s l l', goes h h1 s l l' -> heap_ok h2 -> (forall q, h_blk h2 q = h_blk h1 q) -> goes h h2 s l l'.
Proof.
  intros h h1 h2 s l l' (A & B & C & D & E) HO X. split; auto. split. apply (stores_frame h1); auto. split; auto. split; intros; rewrite X; auto.
Qed.
Lemma later_refl : forall h, later h h.
Proof. intros h. split; auto. Qed.
Lemma later_trans : forall a b c, later a b -> later b c -> later a c.
Proof. intros a b c (A & B) (C & D). split; [congruence|lia]. Qed.
Lemma later_oom : forall a b, later a b -> no_oom a -> no_oom b.
Proof. intros a b (A & B). apply no_oom_later; auto. Qed.
Lemma goes_trans : forall h h1 h2 s l l1 l2, heap_ok h -> stores h s l -> later h h1 -> goes h h1 s l l1 -> goes h1 h2 s l1 l2 -> goes h h2 s l l2.
Proof. intros h h1 h2 s l l1 l2 HO ST (_ & N) A B. eapply evolves_trans; eauto. Qed.
Lemma stores_len : forall h s l, heap_ok h -> stores h s l -> (length l < h_next h)%nat.
Proof. intros h s l HO ST. assert (X := stores_bound _ _ _ HO ST). assert (Y := length_blocks l). cbn [length] in X. lia. Qed.
Lemma nth_last : forall (A : Type) (l : list A) x, nth_error (l ++ [x]) (length l) = Some x.
Proof. intros A l x. rewrite nth_error_app2, Nat.sub_diag; auto. Qed.

(** the value of the last parameter *)
Lemma param_value_last : forall h s l x, heap_ok h -> stores h s (l ++ [x]) -> naddr x <> null ->
  exists v h1, param_value h s (Z.of_nat (length l)) = Ret (v, h1) /\ heap_ok h1 /\ later h h1 /\
  ((v = None /\ ~ no_oom h /\ forall q, h_blk h1 q = h_blk h q) \/
   exists p, v = Some (p, naddr x) /\ p = h_next h /\ p <> null /\ h_blk h1 p <> None /\ forall q, q <> p -> h_blk h1 q = h_blk h q).
Proof.
  intros h s l x HO ST NN. unfold param_value. rewrite (value_spec _ _ _ _ _ ST (stores_len _ _ _ HO ST)). cbn [bind].
  destruct (Z.ltb_spec (Z.of_nat (length l)) 0); [lia|]. rewrite Nat2Z.id, nth_last. destruct (naddr x) as [|a0] eqn:EA; [exfalso; apply NN; reflexivity|]. rewrite <- EA in *. clear EA a0.
  destruct (alloc h _) as (p, h1) eqn:A1. destruct (alloc_spec _ _ _ _ HO A1) as (HO1 & OK1 & N1 & [(-> & OF & B1)|(PN & PE & BP & B1)]).
  - unfold null at 1. exists None, h1. split; auto. split; auto. split. split; auto; lia. left. split; auto. split; auto. intros X. rewrite X in OF; [discriminate|lia].
  - destruct p as [|p0] eqn:EP; [exfalso; apply PN; reflexivity|]. rewrite <- EP in *. clear EP p0. exists (Some (p, naddr x)), h1. split; auto. split; auto. split. split; auto; lia.
    right. exists p. split; auto. split; auto. split; auto. split; auto. rewrite BP. discriminate.
Qed.
Lemma shape_buf : forall x r b, shape_of x = SBuf (inl r) b -> exists p a, x = NBuf p (PStatic r) a b.
Proof. intros [p e a b'|p e s l|p e] r b H; cbn in H; try discriminate. injection H as H <-. destruct e; cbn in H; try discriminate. injection H as <-. eauto. Qed.
Lemma shape_stor : forall x r, shape_of x = SStor (inl r) [] -> exists p a, x = NStor p (PStatic r) a [].
Proof. intros [p e a b'|p e s l|p e] r H; cbn in H; try discriminate. injection H as H H2. destruct e; cbn in H; try discriminate. injection H as <-. destruct l; try discriminate. eauto. Qed.
Lemma last_contents : forall h s l x, stores h s (l ++ [x]) -> contents h x.
Proof. intros h s l x (_ & _ & CH & _). apply chain_app in CH. destruct CH as (_ & CH). cbn [chain] in CH. apply CH. Qed.

(** appending a buffer and finding it *)
Lemma slot_ok : forall h s l r sz, heap_ok h -> stores h s l -> 0 < sz ->
  (exists h', slot h s (Z.of_nat (length l)) r sz = Ret (inl h') /\ later h h' /\ ~ no_oom h /\ exists l', goes h h' s l l') \/
  (exists h' p a, slot h s (Z.of_nat (length l)) r sz = Ret (inr (h', a)) /\ later h h' /\ a <> null /\
     goes h h' s l (l ++ [NBuf p (PStatic r) a (repeat 0 (Z.to_nat sz))])).
Proof.
  intros h s l r sz HO ST P. unfold slot.
  destruct (append_by_buffer_spec h s l (EStatic r) (inl r) sz HO ST eq_refl P) as (z & h1 & -> & HO1 & OK1 & N1 & CASES). cbn [bind].
  destruct CASES as [(Z0 & NO & B1)|(-> & x & SX & AP)].
  - destruct (Z.eqb_spec z 0); [contradiction|]. cbn [negb]. left. exists h1. split; auto. split. split; auto. split; auto. exists l. apply evolves_refl; auto.
  - cbn [Z.eqb negb]. apply shape_buf in SX. destruct SX as (p & a & ->). assert (EV := appended_evolves _ _ _ _ _ HO1 AP). destruct AP as (ST1 & RG & FR).
    assert (CX := last_contents _ _ _ _ ST1). cbn [contents] in CX. destruct CX as (_ & AN & _ & AB).
    destruct (param_value_last h1 s l _ HO1 ST1) as (v & h2 & -> & HO2 & L2 & [(-> & NO & B2)|(pv & -> & PE & PN & PB & B2)]). exact AN.
    + cbn [bind]. left. exists h2. assert (L1 : later h h1) by (split; auto). split; auto. split. eapply later_trans; eauto. split. intros X. apply NO. eapply later_oom; eauto. eexists. eapply goes_ext; eauto.
    + cbn [bind naddr]. destruct (free_ok h2 pv) as (h3 & -> & N3 & O3 & F1 & F2); auto. cbn [bind]. right. exists h3, p, a. split; auto. split. { eapply later_trans. split; eauto. eapply later_trans. eauto. split; auto. lia. } split; auto.
      assert (SB : forall q, h_blk h3 q = h_blk h1 q). { intros q. destruct (Nat.eq_dec q pv) as [->|NE]. rewrite F1. subst pv. symmetry. destruct HO1 as (_ & _ & X). apply X. lia. rewrite F2, B2; auto. }
      eapply goes_ext; eauto. eapply heap_ok_freed. exact HO2. auto. intros q. destruct (Nat.eq_dec q pv) as [->|NE]; auto.
Qed.

Lemma store_bytes_ok : forall h s l p r a b0 b, heap_ok h -> stores h s (l ++ [NBuf p (PStatic r) a b0]) -> length b = length b0 ->
  exists h', store_bytes h a b = Ret h' /\ later h h' /\ goes h h' s (l ++ [NBuf p (PStatic r) a b0]) (l ++ [NBuf p (PStatic r) a b]).
Proof.
  intros h s l p r a b0 b HO ST LB. assert (CX := last_contents _ _ _ _ ST). cbn [contents] in CX. destruct CX as (_ & AN & BN & AB).
  unfold store_bytes, get_bytes. rewrite AB. cbn [bind]. destruct (Nat.ltb_spec (length b0) (length b)); [lia|]. rewrite LB, skipn_all, app_nil_r.
  destruct (write_evolves h s _ (length l) p (PStatic r) a b0 b HO ST (nth_last _ l _) LB) as (l' & EV & _ & EL). eexists. split; [reflexivity|]. split. split; auto.
  assert (X : at_nth (length l) (fun _ => NBuf p (PStatic r) a b) (l ++ [NBuf p (PStatic r) a b0]) = l ++ [NBuf p (PStatic r) a b]) by (rewrite at_nth_split; reflexivity). rewrite X in EL. subst l'. exact EV.
Qed.

Section One.
Variable demote : list Z -> list Z.
Lemma cls_refl : forall c, cls_eqb c c = true.
Proof. intros []; cbn; auto. apply Nat.eqb_refl. Qed.
Lemma fetch_ok : forall h s l p r a b0 c cv b args, heap_ok h -> stores h s (l ++ [NBuf p (PStatic r) a b0]) -> length (convert demote cv b) = length b0 ->
  exists h', fetch demote h a c cv (Arg c b :: args) = Ret (h', args) /\ later h h' /\ goes h h' s (l ++ [NBuf p (PStatic r) a b0]) (l ++ [NBuf p (PStatic r) a (convert demote cv b)]).
Proof.
  intros. unfold fetch, va_arg. rewrite cls_refl. cbn [bind]. destruct (store_bytes_ok h s l p r a b0 (convert demote cv b)) as (h' & -> & L & G); auto. cbn [bind]. eauto.
Qed.

Definition done (h : heap) (s : ptr) (l : list node) (r : ref) (b : list Z) (args : list arg) (o : heap + heap * list arg) : Prop :=
  match o with
  | inl h' => later h h' /\ ~ no_oom h /\ exists l', goes h h' s l l'
  | inr (h', rest) => later h h' /\ rest = args /\ exists p a, goes h h' s l (l ++ [NBuf p (PStatic r) a b])
  end.
(** what happens when a condition holds; then the others do not apply *)
Lemma hit_ok : forall h s l r sz c cv b args, heap_ok h -> stores h s l -> 0 < sz -> Z.of_nat (length (convert demote cv b)) = sz ->
  (exists h', try_slot demote s (Z.of_nat (length l)) r true sz c cv (h, Arg c b :: args, null) = Ret (inl h') /\ done h s l r (convert demote cv b) args (inl h')) \/
  (exists h' a, try_slot demote s (Z.of_nat (length l)) r true sz c cv (h, Arg c b :: args, null) = Ret (inr (h', args, a)) /\ a <> null /\ done h s l r (convert demote cv b) args (inr (h', args))).
Proof.
  intros h s l r sz c cv b args HO ST P LB. unfold try_slot. cbn [Nat.eqb null andb]. destruct (slot_ok h s l r sz HO ST P) as [(h1 & -> & L1 & NO & G)|(h1 & p & a & -> & L1 & AN & G)]; cbn [bind].
  - left. exists h1. split; auto. split; auto.
  - right. destruct (Nat.eqb_spec a null); [contradiction|]. destruct (fetch_ok h1 s l p r a _ c cv b args (proj1 G) (proj1 (proj2 G))) as (h2 & -> & L2 & G2). { destruct (repeat_cons sz P). lia. }
    cbn [bind]. exists h2, a. split; auto. split; auto. split. eapply later_trans; eauto. split; auto. exists p, a. eapply goes_trans; eauto.
Qed.
Lemma miss_hit : forall s i r sz c cv st, try_slot demote s i r false sz c cv st = Ret (inr st).
Proof. intros s i r sz c cv ((h, args), a). unfold try_slot. rewrite andb_false_r. reflexivity. Qed.
Lemma miss_addr : forall s i r hit sz c cv h args a, a <> null -> try_slot demote s i r hit sz c cv (h, args, a) = Ret (inr (h, args, a)).
Proof. intros. unfold try_slot. destruct (Nat.eqb_spec a null); [contradiction|]. reflexivity. Qed.
Lemma base_rest : forall t name bsz s i r h args a, a <> null -> try_base demote t name bsz s i r (h, args, a) = Ret (inr (h, args, a)).
Proof. induction t as [|(((nm, sz), c), cv) t IH]; intros; cbn [try_base]; auto. rewrite miss_addr; auto. cbn [bind]. auto. Qed.
Lemma enum_rest : forall t bsz s i r h args a, a <> null -> try_enum demote t bsz s i r (h, args, a) = Ret (inr (h, args, a)).
Proof. induction t as [|((sz, c), cv) t IH]; intros; cbn [try_enum]; auto. rewrite miss_addr; auto. cbn [bind]. auto. Qed.

Definition finish (x : res (heap + pst)) : res (heap + heap * list arg) :=
  bind x (fun x => match x with inl h1 => Ret (inl h1) | inr (h1, rest, a) => Ret (if Nat.eqb a null then inl h1 else inr (h1, rest)) end).
Lemma base_hit : forall name sz c cv post pre h s l r b args, heap_ok h -> stores h s l -> 0 < sz -> Z.of_nat (length (convert demote cv b)) = sz ->
  forallb (fun e => match e with (nm, z, _, _) => negb (String.eqb name nm && (sz =? z)) end) pre = true ->
  exists o, finish (try_base demote (pre ++ (name, sz, c, cv) :: post) name sz s (Z.of_nat (length l)) r (h, Arg c b :: args, null)) = Ret o /\ done h s l r (convert demote cv b) args o.
Proof.
  induction pre as [|(((nm, z), c'), cv') pre IH]; intros h s l r b args HO ST P LB F; cbn [app try_base].
  - rewrite String.eqb_refl, Z.eqb_refl. cbn [andb]. destruct (hit_ok h s l r sz c cv b args HO ST P LB) as [(h' & -> & D)|(h' & a & -> & AN & D)]; cbn [bind].
    + cbn [finish bind]. eauto.
    + rewrite base_rest by auto. cbn [finish bind]. destruct (Nat.eqb_spec a null); [contradiction|]. eauto.
  - cbn [forallb] in F. apply andb_prop in F. destruct F as (F1 & F2). apply negb_true_iff in F1. rewrite F1, miss_hit. cbn [bind]. auto.
Qed.
Lemma enum_hit : forall sz c cv post pre h s l r b args, heap_ok h -> stores h s l -> 0 < sz -> Z.of_nat (length (convert demote cv b)) = sz ->
  forallb (fun e => match e with (z, _, _) => negb (sz =? z) end) pre = true ->
  exists o, finish (try_enum demote (pre ++ (sz, c, cv) :: post) sz s (Z.of_nat (length l)) r (h, Arg c b :: args, null)) = Ret o /\ done h s l r (convert demote cv b) args o.
Proof.
  induction pre as [|((z, c'), cv') pre IH]; intros h s l r b args HO ST P LB F; cbn [app try_enum].
  - rewrite Z.eqb_refl. destruct (hit_ok h s l r sz c cv b args HO ST P LB) as [(h' & -> & D)|(h' & a & -> & AN & D)]; cbn [bind].
    + cbn [finish bind]. eauto.
    + rewrite enum_rest by auto. cbn [finish bind]. destruct (Nat.eqb_spec a null); [contradiction|]. eauto.
  - cbn [forallb] in F. apply andb_prop in F. destruct F as (F1 & F2). apply negb_true_iff in F1. rewrite F1, miss_hit. cbn [bind]. auto.
Qed.

Lemma le_length : forall k v, length (le_bytes k v) = k.
Proof. induction k; intros; cbn; auto. Qed.
Lemma le_low : forall k j v, (k <= j)%nat -> firstn k (le_bytes j v) = le_bytes k v.
Proof. induction k as [|k IH]; intros [|j] v L; cbn; auto; try lia. f_equal. apply IH. lia. Qed.

Section Db.
Variables n nc : nat.
Variable d : db.
Variable promote : list Z -> list Z.
Variable va_fn : ref -> bool.
Hypothesis AC : acyclic d n.
Hypothesis PD : forall b, length b = 4%nat -> demote (promote b) = b.

Lemma size_ok : forall t f z, final_type d (Some (St t)) (Some (St f)) -> has_size d (Some (St f)) z -> 0 <= z < 2 ^ 64 -> byte_size (n + 3) d (Some (St t)) = Ret (inl z).
Proof.
  intros t f z (qs & F) S B. destruct (byte_size_total d n (Some (St t)) AC) as (x & X). rewrite X. f_equal. apply byte_size_spec in X. apply (size_of_final _ _ _ _ F) in S. destruct x as [v|e].
  - destruct X as (z' & S' & ->). assert (z' = z) by (eapply has_size_fun; eauto). subst. f_equal. unfold uwrap. apply Z.mod_small. auto.
  - destruct X as (_ & X). exfalso. eapply X; eauto.
Qed.
Lemma arithmetic_base : forall name b a args h s l r, arithmetic promote name b a -> heap_ok h -> stores h s l ->
  exists o, finish (try_base demote base_table name (Z.of_nat (length b)) s (Z.of_nat (length l)) r (h, a :: args, null)) = Ret o /\ done h s l r b args o.
Proof.
  intros name b a args h s l r A HO ST.
  assert (GO : forall sz c cv b1 pre post, Z.of_nat (length b) = sz -> 0 < sz -> convert demote cv b1 = b -> a = Arg c b1 -> base_table = pre ++ (name, sz, c, cv) :: post ->
    forallb (fun e => match e with (nm, z, _, _) => negb (String.eqb name nm && (sz =? z)) end) pre = true ->
    exists o, finish (try_base demote base_table name (Z.of_nat (length b)) s (Z.of_nat (length l)) r (h, a :: args, null)) = Ret o /\ done h s l r b args o).
  { intros sz c cv b1 pre post L P C EA T F. rewrite L, EA, T. rewrite <- C. apply base_hit; auto. rewrite C. auto. }
  inversion A; subst; clear A.
  - apply (GO 1 CInt (Low 1) (le_bytes 4 v) [] (tl base_table)); rewrite ?le_length; reflexivity.
  - apply (GO 1 CInt (Low 1) (le_bytes 4 v) (firstn 1 base_table) (skipn 2 base_table)); rewrite ?le_length; reflexivity.
  - apply (GO 2 CInt (Low 2) (le_bytes 4 v) (firstn 2 base_table) (skipn 3 base_table)); rewrite ?le_length; reflexivity.
  - apply (GO 2 CInt (Low 2) (le_bytes 4 v) (firstn 3 base_table) (skipn 4 base_table)); rewrite ?le_length; reflexivity.
  - apply (GO 1 CInt ToBool (le_bytes 4 v) (firstn 10 base_table) (skipn 11 base_table)); rewrite ?le_length; try reflexivity. destruct H as [-> | ->]; reflexivity.
  - apply (GO 4 CInt Same b (firstn 4 base_table) (skipn 5 base_table)); rewrite ?H; reflexivity.
  - apply (GO 4 CInt Same b (firstn 5 base_table) (skipn 6 base_table)); rewrite ?H; reflexivity.
  - apply (GO 8 CLong Same b (firstn 6 base_table) (skipn 7 base_table)); rewrite ?H; reflexivity.
  - apply (GO 8 CLong Same b (firstn 7 base_table) (skipn 8 base_table)); rewrite ?H; reflexivity.
  - apply (GO 8 CLLong Same b (firstn 8 base_table) (skipn 9 base_table)); rewrite ?H; reflexivity.
  - apply (GO 8 CLLong Same b (firstn 9 base_table) (skipn 10 base_table)); rewrite ?H; reflexivity.
  - apply (GO 4 CDouble ToFloat (promote b) (firstn 11 base_table) (skipn 12 base_table)); rewrite ?H; try reflexivity. cbn. auto.
  - apply (GO 8 CDouble Same b (firstn 12 base_table) (skipn 13 base_table)); rewrite ?H; reflexivity.
  - apply (GO 16 CLDouble Same b (firstn 13 base_table) (skipn 14 base_table)); rewrite ?H; reflexivity.
  - apply (GO 8 CFComplex Same b (firstn 14 base_table) (skipn 15 base_table)); rewrite ?H; reflexivity.
  - apply (GO 16 CDComplex Same b (firstn 15 base_table) (skipn 16 base_table)); rewrite ?H; reflexivity.
  - apply (GO 32 CLDComplex Same b (firstn 16 base_table) (skipn 17 base_table)); rewrite ?H; reflexivity.
Qed.

Lemma normal_ok : forall r t b a args h s l, e_info (d r) = IParam false (Some t) -> passes d promote va_fn t b a -> heap_ok h -> stores h s l ->
  exists o, normal_param (n + 3) d demote va_fn h s (Z.of_nat (length l)) r (a :: args) = Ret o /\ done h s l r b args o.
Proof.
  intros r t b a args h s l IR PS HO ST. unfold normal_param. rewrite IR.
  assert (FI : forall f w, final_type d (Some (St t)) (Some (St f)) -> final_if (n + 3) d (Some (St t)) w = Ret (if w (e_info (d f)) then Some (St f) else None)) by (intros; rewrite (final_if_type d n _ _ _ AC H); reflexivity).
  destruct PS as [f name z enc b a F IF NF AR EZ|f u b F IF LB|f z ls v k F IF EZ KK|f ls b F IF LB|f ls b F IF LB|f k z ls b F IF VF ZP EZ].
  - assert (BL : 0 <= z < 2 ^ 64). { subst z. destruct AR; rewrite ?le_length, ?H; lia. }
    rewrite (size_ok t f z F) by (auto; eapply hs_base; exact IF). cbn [bind]. rewrite !(FI f _ F), IF. cbn [bind is_base_info is_pointer_info is_enum_info is_aggr_info]. cbn [deref]. rewrite NF.
    subst z. exact (arithmetic_base name b a args h s l r AR HO ST).
  - rewrite (size_ok t f 8 F) by (try lia; eapply hs_pointer; exact IF). cbn [bind]. rewrite !(FI f _ F), IF. cbn [bind is_base_info is_pointer_info is_enum_info is_aggr_info].
    destruct (hit_ok h s l r 8 CPtr Same b args HO ST) as [(h' & -> & D)|(h' & a & -> & AN & D)]; try lia. { cbn. rewrite LB. reflexivity. } cbn [bind]. eauto. cbn [bind]. destruct (Nat.eqb_spec a null); [contradiction|]. eauto.
  - assert (BL : 0 <= z < 2 ^ 64) by (destruct KK; subst; lia).
    rewrite (size_ok t f z F) by (auto; eapply hs_enum; exact IF). cbn [bind]. rewrite !(FI f _ F), IF. cbn [bind is_base_info is_pointer_info is_enum_info is_aggr_info].
    destruct KK; subst k z.
    + apply (enum_hit 1 CInt (Low 1) (tl enum_table) [] h s l r (le_bytes 4 v) args HO ST); try reflexivity.
    + apply (enum_hit 2 CInt (Low 2) (skipn 2 enum_table) (firstn 1 enum_table) h s l r (le_bytes 4 v) args HO ST); try reflexivity.
  - rewrite (size_ok t f 4 F) by (try lia; eapply hs_enum; exact IF). cbn [bind]. rewrite !(FI f _ F), IF. cbn [bind is_base_info is_pointer_info is_enum_info is_aggr_info].
    apply (enum_hit 4 CInt Same (skipn 3 enum_table) (firstn 2 enum_table) h s l r b args HO ST); cbn [convert]; rewrite ?LB; try reflexivity.
  - rewrite (size_ok t f 8 F) by (try lia; eapply hs_enum; exact IF). cbn [bind]. rewrite !(FI f _ F), IF. cbn [bind is_base_info is_pointer_info is_enum_info is_aggr_info].
    apply (enum_hit 8 CLong Same (skipn 4 enum_table) (firstn 3 enum_table) h s l r b args HO ST); cbn [convert]; rewrite ?LB; try reflexivity.
  - rewrite (size_ok t f z F) by (try lia; eapply hs_aggr; exact IF). cbn [bind]. rewrite !(FI f _ F), IF. cbn [bind is_base_info is_pointer_info is_enum_info is_aggr_info].
    unfold try_struct. destruct (slot_ok h s l r z HO ST) as [(h1 & -> & L1 & NO & G)|(h1 & p & a & -> & L1 & AN & G)]; try lia; cbn [bind].
    + exists (inl h1). split; auto. split; auto.
    + destruct (Nat.eqb_spec a null); [contradiction|]. rewrite (FI f _ F), IF. cbn [bind is_aggr_info]. rewrite VF.
      destruct (fetch_ok h1 s l p r a _ (CStruct f) Same b args (proj1 G) (proj1 (proj2 G))) as (h2 & -> & L2 & G2). { cbn [convert]. rewrite repeat_length. lia. }
      cbn [bind]. destruct (Nat.eqb_spec a null); [contradiction|]. exists (inr (h2, args)). split; auto. split. eapply later_trans; eauto. split; auto. exists p, a. eapply goes_trans; eauto.
Qed.
End Db.
End One.
