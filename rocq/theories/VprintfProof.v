(** Proofs about capturing the arguments of a printf-like call. *)
From Coq Require Import ZArith String List Bool Lia ZifyBool Arith.
From Verif Require Import Base EntryModel EntrySpec EntryProof ValueProof2 CdeclModel HandlerModel PStorModel PStorSpec PStorProof WrapModel WrapSpec WrapProof VprintfModel VprintfSpec.
From Verif Require PrintfModel PrintfSpec PrintfProof.
Import ListNotations.
Open Scope Z_scope.

Lemma le_number_bytes : forall k v, le_number (le_bytes k v) = v mod 256 ^ Z.of_nat k.
Proof.
  induction k as [|k IH]; intros v; cbn [le_bytes le_number]. rewrite Z.mod_1_r. reflexivity.
  rewrite IH, Nat2Z.inj_succ, Z.pow_succ_r by lia. rewrite Z.rem_mul_r by (try apply Z.pow_pos_nonneg; lia). reflexivity.
Qed.
Lemma le_address : forall p, 0 <= p < 2 ^ 64 -> le_number (le_bytes 8 p) = p.
Proof. intros p H. rewrite le_number_bytes. apply Z.mod_small. exact H. Qed.

(** the value of a parameter, and deleting it *)
Lemma chain_contents : forall h l i x pv nx, chain h l pv nx -> nth_error l i = Some x -> contents h x.
Proof. intros h. induction l as [|y l IH]; intros [|i] x pv nx C N; cbn in N; try discriminate; cbn [chain] in C; destruct C as (_ & _ & C & R). congruence. eauto. Qed.
Lemma entry_of_contents : forall h x, contents h x -> entry_holds h (nentry x).
Proof. intros h [p e a b|p e s l|p e] C; cbn [contents nentry] in *; tauto. Qed.
Definition deletes (h h1 : heap) (v : hval) : Prop := forall h2, heap_ok h2 -> (forall q, (h_next h <= q < h_next h1)%nat -> h_blk h2 q = h_blk h1 q) ->
  exists h3, value_delete h2 v = Ret h3 /\ heap_ok h3 /\ h_next h3 = h_next h2 /\ h_ok h3 = h_ok h2 /\ (forall q, (h_next h <= q < h_next h1)%nat -> h_blk h3 q = None) /\
    forall q, (q < h_next h \/ h_next h1 <= q)%nat -> h_blk h3 q = h_blk h2 q.
Lemma value_at_ok : forall h s l i x, heap_ok h -> stores h s l -> nth_error l i = Some x -> naddr x <> null ->
  exists v h1, value_at h s (Z.of_nat i) = Ret (v, h1) /\ heap_ok h1 /\ later h h1 /\ (forall q, (q < h_next h)%nat -> h_blk h1 q = h_blk h q) /\
  ((v = None /\ ~ no_oom h /\ forall q, h_blk h1 q = h_blk h q) \/
   exists p e, v = Some (p, e, naddr x) /\ entry_src h1 e (entry_of (nentry x)) /\ deletes h h1 (p, e, naddr x)).
Proof.
  intros h s l i x HO ST NX NN. assert (CX : contents h x) by (destruct ST as (_ & _ & C & _); eapply chain_contents; eauto). assert (EH := entry_of_contents _ _ CX).
  unfold value_at. rewrite (value_spec _ _ _ _ _ ST (stores_len _ _ _ HO ST)). cbn [bind]. destruct (Z.ltb_spec (Z.of_nat i) 0); [lia|]. rewrite Nat2Z.id, NX.
  destruct (naddr x) as [|a0] eqn:EA; [exfalso; apply NN; reflexivity|]. rewrite <- EA in *. clear EA a0.
  destruct (alloc h _) as (p, h1) eqn:A1. destruct (alloc_spec _ _ _ _ HO A1) as (HO1 & OK1 & N1 & [(-> & OF & B1)|(PN & PE & BP & B1)]).
  - unfold null at 1. exists None, h1. split; auto. split; auto. split. split; auto; lia. split; auto. left. split; auto. split; auto. intros X. rewrite X in OF; [discriminate|lia].
  - destruct p as [|p0] eqn:EP; [exfalso; apply PN; reflexivity|]. rewrite <- EP in *. clear EP p0. assert (OLD1 : forall q, (q < h_next h)%nat -> h_blk h1 q = h_blk h q) by (intros q Q; apply B1; lia).
    destruct (nentry x) as [r|q e]; cbn [raw_entry entry_of entry_holds] in *.
    + exists (Some (p, EStatic r, naddr x)), h1. split; auto. split; auto. split. split; auto; lia. split; auto. right. exists p, (EStatic r). split; auto. split. reflexivity.
      intros h2 HO2 SM. cbn [value_delete entry_delete bind]. destruct (free_ok h2 p) as (h3 & -> & N3 & O3 & F1 & F2); auto. { rewrite SM, BP by lia. discriminate. }
      exists h3. split; auto. split. { eapply heap_ok_freed. exact HO2. auto. intros q. destruct (Nat.eq_dec q p) as [->|NE]; auto. } split; auto. split; auto. split; intros q Q.
      assert (q = p) by lia. subst q. auto. apply F2. lia.
    + destruct EH as (QN & QB). assert (QO : (q < h_next h)%nat) by (apply live_old; auto; rewrite QB; discriminate). unfold new_entry, get_entry. rewrite (OLD1 q QO), QB. cbn [bind].
      destruct (alloc h1 _) as (c, h2) eqn:A2. destruct (alloc_spec _ _ _ _ HO1 A2) as (HO2 & OK2 & N2 & [(-> & OF & B2)|(CN & CE & BC & B2)]).
      * unfold null at 1. destruct (free_ok h2 p) as (h3 & E3 & N3 & O3 & F1 & F2); auto. { rewrite B2, BP. discriminate. } rewrite E3. cbn [bind]. exists None, h3. split; auto. split. { eapply heap_ok_freed. exact HO2. auto. intros z. destruct (Nat.eq_dec z p) as [->|NE]; auto. }
        split. split; [congruence|lia]. assert (FR : forall z, h_blk h3 z = h_blk h z). { intros z. destruct (Nat.eq_dec z p) as [->|NE]. rewrite F1. symmetry. destruct HO as (_ & _ & X). apply X. lia. rewrite F2, B2, B1; auto. } split; auto.
        left. split; auto. split; auto. intros X. rewrite OK1, X in OF; [discriminate|lia].
      * destruct c as [|c0] eqn:EC; [exfalso; apply CN; reflexivity|]. rewrite <- EC in *. clear EC c0. exists (Some (p, EBlock c, naddr x)), h2. split; auto. split; auto. split. split; [congruence|lia]. split. intros z Q. rewrite B2, OLD1; auto. lia.
        right. exists p, (EBlock c). split; auto. split. exact BC. assert (BP2 : h_blk h2 p = Some (BBytes [0])) by (rewrite B2, BP; auto; lia).
        intros h3 HO3 SM. cbn [value_delete entry_delete bind]. destruct (free_ok h3 c) as (h4 & -> & N4 & O4 & F1 & F2); auto. { rewrite SM, BC by lia. discriminate. } cbn [bind].
        destruct (free_ok h4 p) as (h5 & -> & N5 & O5 & G1 & G2); auto. { rewrite F2, SM, BP2 by lia. discriminate. }
        assert (HO4 : heap_ok h4). { eapply heap_ok_freed. exact HO3. auto. intros z. destruct (Nat.eq_dec z c) as [->|NE]; auto. }
        exists h5. split; auto. split. { eapply heap_ok_freed. exact HO4. auto. intros z. destruct (Nat.eq_dec z p) as [->|NE]; auto. } split; [congruence|]. split; [congruence|]. split; intros z Q.
        -- destruct (Nat.eq_dec z p) as [->|NE]; auto. rewrite G2 by auto. assert (z = c) by lia. subst z. auto.
        -- rewrite G2, F2; auto; lia.
Qed.

(** writing less than the buffer holds *)
Lemma store_some : forall h s l p e a b0 b, heap_ok h -> stores h s (l ++ [NBuf p e a b0]) -> (length b <= length b0)%nat ->
  exists h', store_bytes h a b = Ret h' /\ later h h' /\ goes h h' s (l ++ [NBuf p e a b0]) (l ++ [NBuf p e a (b ++ skipn (length b) b0)]).
Proof.
  intros h s l p e a b0 b HO ST LB. assert (CX := last_contents _ _ _ _ ST). cbn [contents] in CX. destruct CX as (_ & AN & BN & AB).
  unfold store_bytes, get_bytes. rewrite AB. cbn [bind]. destruct (Nat.ltb_spec (length b0) (length b)); [lia|]. set (b' := b ++ skipn (length b) b0).
  assert (LB' : length b' = length b0). { unfold b'. rewrite app_length, skipn_length. lia. }
  destruct (write_evolves h s _ (length l) p e a b0 b' HO ST (nth_last _ l _) LB') as (l' & EV & _ & EL). eexists. split; [reflexivity|]. split. split; auto.
  assert (X : at_nth (length l) (fun _ => NBuf p e a b') (l ++ [NBuf p e a b0]) = l ++ [NBuf p e a b']) by (rewrite at_nth_split; reflexivity). rewrite X in EL. subst l'. exact EV.
Qed.
Lemma shape_dyn : forall x e b, shape_of x = SBuf (inr e) b -> exists p q a, x = NBuf p (PDyn q e) a b.
Proof. intros [p e' a b'|p e' s l|p e'] e b H; cbn in H; try discriminate. injection H as H <-. destruct e'; cbn in H; try discriminate. injection H as <-. eauto. Qed.

Section Vprintf.
Variable demote : list Z -> list Z.
Variable tref : PrintfModel.ctype -> ref.
Variable cstr : Z -> option (list Z).
Notation store_string := (store_string tref cstr).
Notation store_conv := (store_conv demote tref cstr).
Notation store_loop := (store_loop demote tref cstr).
Notation store_vprintf := (store_vprintf demote tref cstr).
Notation printed := (printed tref cstr).
Notation prints := (prints tref cstr).
Notation chars := (chars tref).

(** one string *)
Lemma string_ok : forall h s l p t, heap_ok h -> stores h s l -> 0 < p < 2 ^ 64 -> cstr p = Some t -> (length t < 8)%nat ->
  (exists h', store_string h s (Z.of_nat (length l)) (le_bytes 8 p) = Ret (inl h') /\ later h h' /\ ~ no_oom h) \/
  (exists h' x, store_string h s (Z.of_nat (length l)) (le_bytes 8 p) = Ret (inr h') /\ later h h' /\ goes h h' s l (l ++ [x]) /\
     shape_of x = SBuf (inr (chars (Z.of_nat (length t) + 1))) (t ++ [0] ++ repeat 0 (7 - length t))).
Proof.
  intros h s l p t HO ST RP CS LT. unfold store_string, VprintfModel.store_string. rewrite le_address by lia. destruct (Z.eqb_spec p 0); [lia|]. rewrite CS.
  change (char_array (tref PrintfModel.TChar) (Z.of_nat (length t) + 1)) with (chars (Z.of_nat (length t) + 1)). set (E := chars (Z.of_nat (length t) + 1)).
  destruct (alloc h _) as (e, h1) eqn:A1. destruct (alloc_spec _ _ _ _ HO A1) as (HO1 & OK1 & N1 & [(-> & OF & B1)|(EN & EE & BE & B1)]).
  { unfold null at 1. left. exists h1. split; auto. split. split; auto; lia. intros X. rewrite X in OF; [discriminate|lia]. }
  destruct e as [|e0] eqn:EP; [exfalso; apply EN; reflexivity|]. rewrite <- EP in *. clear EP e0.
  assert (OLD := fun q => stores_old h s l q HO ST). assert (ST1 : stores h1 s l). { apply (stores_frame h); auto. intros q I. apply B1. apply OLD in I. lia. }
  destruct (append_by_buffer_spec h1 s l (EBlock e) (inr E) 8 HO1 ST1 BE) as (z & h2 & -> & HO2 & OK2 & N2 & CASES); [lia|]. cbn [bind].
  destruct CASES as [(Z0 & NO & B2)|(-> & x & SX & AP)].
  { destruct (Z.eqb_spec z 0); [contradiction|]. cbn [negb]. left. exists h2. split; auto. split. split; [congruence|lia]. intros X. apply NO. eapply later_oom; eauto. split; auto; lia. }
  cbn [Z.eqb negb]. apply shape_dyn in SX. destruct SX as (px & q & a & ->). assert (EV := appended_evolves _ _ _ _ _ HO2 AP). destruct AP as (ST2 & RG & FR).
  assert (CX := last_contents _ _ _ _ ST2). cbn [contents entry_holds] in CX. destruct CX as ((QN & QB) & AN & _ & AB).
  assert (L2 : later h h2) by (split; [congruence|lia]). assert (OLD2 := fun q => stores_old h2 s _ q HO2 ST2).
  assert (ENI : ~ In e (s :: all_blocks (l ++ [NBuf px (PDyn q E) a (repeat 0 (Z.to_nat 8))]))).
  { intros [I|I]. subst s. assert (K := OLD e (or_introl eq_refl)). lia. rewrite all_blocks_app in I. apply in_app_or in I. destruct I as [I|I]. assert (K := OLD e (or_intror I)). lia.
    cbn [all_blocks flat_map] in I. rewrite app_nil_r in I. apply RG in I. lia. }
  assert (BE2 : h_blk h2 e = Some (BEntry E)). { rewrite FR; auto. intros [I|I]; apply ENI. left; auto. right. rewrite all_blocks_app. apply in_or_app. auto. intros I. apply RG in I. lia. }
  destruct (value_at_ok h2 s _ (length l) _ HO2 ST2 (nth_last _ l _) AN) as (v & h3 & -> & HO3 & L3 & FR3 & CASES). cbn [bind].
  assert (EO : (e < h_next h2)%nat) by lia.
  destruct (free_ok h3 e) as (h4 & -> & N4 & O4 & F1 & F2); auto. { rewrite FR3, BE2; auto. discriminate. } cbn [bind].
  assert (HO4 : heap_ok h4). { eapply heap_ok_freed. exact HO3. auto. intros z. destruct (Nat.eq_dec z e) as [->|NE]; auto. }
  assert (L4 : later h h4). { eapply later_trans. exact L2. eapply later_trans. exact L3. split; auto. lia. }
  destruct CASES as [(-> & NO & B3)|(pv & ev & -> & _ & DEL)].
  { left. exists h4. split; auto. split; auto. intros X. apply NO. eapply later_oom; eauto. }
  destruct (DEL h4 HO4) as (h5 & -> & HO5 & N5 & O5 & D1 & D2). { intros z Q. apply F2. lia. } cbn [bind snd naddr].
  (* h5 is h2 without e *)
  assert (SM : forall z, z <> e -> h_blk h5 z = h_blk h2 z). { intros z NE. destruct (Nat.lt_ge_cases z (h_next h2)) as [Q|Q]. rewrite D2, F2, FR3; auto.
    transitivity (@None block). 2:{ symmetry. destruct HO2 as (_ & _ & X). auto. } destruct (Nat.lt_ge_cases z (h_next h3)). apply D1; auto. destruct HO5 as (_ & _ & X). apply X. lia. }
  assert (E5 : h_blk h5 e = None). { rewrite D2; auto. }
  assert (ST5 : stores h5 s (l ++ [NBuf px (PDyn q E) a (repeat 0 (Z.to_nat 8))])). { apply (stores_frame h2); auto. intros z I. apply SM. intros ->. contradiction. }
  assert (L5 : later h h5). { eapply later_trans. exact L4. split; auto. lia. }
  assert (G5 : goes h h5 s l (l ++ [NBuf px (PDyn q E) a (repeat 0 (Z.to_nat 8))])).
  { destruct EV as (_ & _ & V1 & V2 & V3). split; auto. split; auto. split. intros z I. apply V1 in I. destruct I; auto. right. lia. split.
    - intros z I J. destruct (Nat.eq_dec z e) as [->|NE]. rewrite E5. symmetry. destruct HO as (_ & _ & X). apply X. lia. rewrite SM by auto. rewrite V2 by auto. apply B1. auto.
    - intros z I J. exfalso. apply J. rewrite all_blocks_app. apply in_or_app. auto. }
  destruct (store_some h5 s l px (PDyn q E) a (repeat 0 (Z.to_nat 8)) (t ++ [0]) HO5 ST5) as (h6 & -> & L6 & G6). { rewrite app_length, repeat_length. cbn [length]. lia. }
  cbn [bind]. right. eexists h6, _. split; [reflexivity|]. split. eapply later_trans; eauto. split. eapply goes_trans; eauto. cbn [shape_of entry_of]. f_equal. rewrite <- app_assoc. f_equal. f_equal.
  rewrite app_length. cbn [length]. clear -LT. change (Z.to_nat 8) with 8%nat. do 8 (destruct t as [|? t]; [reflexivity|]). cbn in LT. lia.
Qed.

(** one conversion *)
Definition stored (h : heap) (s : ptr) (l : list node) (x : shape) (args : list arg) (o : heap + heap * list arg) : Prop :=
  match o with
  | inl h' => later h h' /\ ~ no_oom h /\ exists l', goes h h' s l l'
  | inr (h', rest) => later h h' /\ rest = args /\ exists y, shape_of y = x /\ goes h h' s l (l ++ [y])
  end.
Lemma conv_ok : forall h s l c a args x sp, heap_ok h -> stores h s l -> printed c a x -> known c -> tidy h [x] -> PrintfModel.t sp = PrintfSpec.dconv c -> PrintfModel.alen sp = PrintfSpec.dlen c ->
  exists o, store_conv h s (Z.of_nat (length l)) sp (a :: args) = Ret o /\ stored h s l x args o.
Proof.
  intros h s l c a args x sp HO ST P K TD ET EL. unfold store_conv, VprintfModel.store_conv. rewrite ET, EL. destruct P as [ty b a D KE|D1 D2|p t D1 D2 RP CS LT].
  - destruct (PrintfProof.dispatch_spec c ty D K) as (-> & N). destruct (Z.eqb_spec (PrintfSpec.dconv c) 115); [contradiction|].
    assert (X : exists w, a = Arg (class_of ty) w /\ convert demote (conv_of ty) w = b /\ Z.of_nat (length b) = PrintfModel.sizeof ty /\ 0 < PrintfModel.sizeof ty).
    { destruct KE as [ty k v I|ty v I|ty v I|b L|b L|ty p I]; try (cbn [In] in I).
      - exists (le_bytes 4 v). decompose [or] I; try contradiction; match goal with E : (_, _) = (_, _) |- _ => injection E as <- <- end; cbn [class_of conv_of convert PrintfModel.sizeof]; rewrite ?le_low, ?le_length by lia; repeat split; lia.
      - exists (le_bytes 8 v). decompose [or] I; try contradiction; subst ty; cbn [class_of conv_of convert PrintfModel.sizeof]; rewrite le_length; repeat split; lia.
      - exists (le_bytes 8 v). decompose [or] I; try contradiction; subst ty; cbn [class_of conv_of convert PrintfModel.sizeof]; rewrite le_length; repeat split; lia.
      - exists b. cbn [class_of conv_of convert PrintfModel.sizeof]. rewrite L. repeat split; lia.
      - exists b. cbn [class_of conv_of convert PrintfModel.sizeof]. rewrite L. repeat split; lia.
      - exists (le_bytes 8 p). decompose [or] I; try contradiction; subst ty; cbn [class_of conv_of convert PrintfModel.sizeof]; rewrite le_length; repeat split; lia. }
    destruct X as (w & -> & CB & LB & PS).
    destruct (slot_ok h s l (tref ty) (PrintfModel.sizeof ty) HO ST PS) as [(h1 & -> & L1 & NO & G)|(h1 & p & ad & -> & L1 & AN & G)]; cbn [bind].
    + exists (inl h1). split; auto. split; auto.
    + destruct (fetch_ok demote h1 s l p (tref ty) ad _ (class_of ty) (conv_of ty) w args (proj1 G) (proj1 (proj2 G))) as (h2 & -> & L2 & G2). { rewrite CB. destruct (repeat_cons (PrintfModel.sizeof ty) PS). lia. }
      cbn [bind]. exists (inr (h2, args)). split; auto. split. eapply later_trans; eauto. split; auto. rewrite CB in G2. exists (NBuf p (PStatic (tref ty)) ad b). split; auto. eapply goes_trans; eauto.
  - rewrite D1. cbn [Z.eqb Pos.eqb va_arg cls_eqb bind]. unfold VprintfModel.store_string. change (le_number (le_bytes 8 0) =? 0) with true. cbv iota.
    destruct (slot_ok h s l (tref PrintfModel.TCharP) 8 HO ST ltac:(lia)) as [(h1 & -> & L1 & NO & G)|(h1 & p & ad & -> & L1 & AN & G)]; cbn [bind].
    + exists (inl h1). split; auto. split; auto.
    + destruct (store_bytes_ok h1 s l p (tref PrintfModel.TCharP) ad _ (le_bytes 8 0) (proj1 G) (proj1 (proj2 G)) eq_refl) as (h2 & -> & L2 & G2). cbn [bind].
      eexists. split; [reflexivity|]. split. eapply later_trans; eauto. split; auto. eexists. split; [|eapply goes_trans; eauto]. reflexivity.
  - rewrite D1. cbn [Z.eqb Pos.eqb va_arg cls_eqb bind]. assert (OOM : no_oom h). { destruct TD as [H|H]; auto. inversion H as [|? ? C]. destruct C. }
    destruct (string_ok h s l p t HO ST RP CS LT) as [(h' & E & L & NO)|(h' & y & E & L & G & SH)]; [contradiction|]. rewrite E. cbn [bind].
    eexists. split; [reflexivity|]. split; auto. split; auto. exists y. auto.
Qed.

(** the format *)
Lemma loop_lit : forall m f pos suf fuel h s id args, PrintfProof.at_ f pos (m ++ suf) -> Forall (fun c => c <> 37) m -> (length m <= fuel)%nat ->
  store_loop fuel h s f pos id args = store_loop (fuel - length m) h s f (pos + length m) id args.
Proof.
  induction m as [|c m IH]; intros f pos suf fuel h s id args A F L; cbn [length] in *.
  - rewrite Nat.sub_0_r, Nat.add_0_r. reflexivity.
  - destruct fuel as [|g]; [lia|]. cbn [app] in A. apply PrintfProof.at_cons in A as (R & Lt & A). cbn [VprintfModel.store_loop]. rewrite Lt, R. cbn [of_printf bind].
    inversion F; subst. destruct (Z.eqb_spec c 37); [contradiction|]. rewrite (IH f (S pos) suf) by (auto; lia).
    f_equal; lia.
Qed.
Lemma tidy_split : forall h x xs, tidy h (x :: xs) -> tidy h [x] /\ tidy h xs.
Proof. intros h x xs [H|H]. split; left; auto. inversion H; subst. split; right; auto. constructor; auto. Qed.
Lemma tidy_later : forall h h' xs, later h h' -> tidy h xs -> tidy h' xs.
Proof. intros h h' xs L [H|H]; [left|right]; auto. eapply later_oom; eauto. Qed.
Lemma loop_pieces : forall k ps f pos fuel h s l args xs, (length ps <= k)%nat -> PrintfProof.at_ f pos (PrintfSpec.format_text ps) -> usable ps ->
  prints (PrintfSpec.conversions ps) args xs -> tidy h xs -> heap_ok h -> stores h s l -> (length (PrintfSpec.format_text ps) + 1 <= fuel)%nat ->
  exists z h' l', store_loop fuel h s f pos (Z.of_nat (length l)) args = Ret (z, h') /\ later h h' /\ goes h h' s l l' /\
    (z = 0 -> map shape_of l' = map shape_of l ++ xs) /\ (no_oom h -> z = 0).
Proof.
  induction k as [|k IH]; intros ps f pos fuel h s l args xs Lk A US PR TD HO ST L.
  { destruct ps; [|cbn in Lk; lia]. destruct fuel; [lia|]. cbn in A. apply PrintfProof.at_nil in A as (_ & _ & Lt).
    cbn in PR. inversion PR; subst. exists 0, h, l. cbn [VprintfModel.store_loop]. rewrite Lt. split; auto. split. apply later_refl. split. apply evolves_refl; auto. rewrite app_nil_r. auto. }
  destruct ps as [|p ps].
  { destruct fuel; [lia|]. cbn in A. apply PrintfProof.at_nil in A as (_ & _ & Lt).
    cbn in PR. inversion PR; subst. exists 0, h, l. cbn [VprintfModel.store_loop]. rewrite Lt. split; auto. split. apply later_refl. split. apply evolves_refl; auto. rewrite app_nil_r. auto. }
  destruct US as ((F & Sp & NP) & Su). inversion F as [|? ? Wp F']; subst. inversion NP as [|? ? Np NP']; subst.
  unfold PrintfSpec.format_text in A, L. cbn [flat_map] in A, L. fold (PrintfSpec.format_text ps) in A, L. rewrite app_length in L.
  destruct p as [m| |c]; cbn [PrintfSpec.piece_text PrintfSpec.wf_piece] in *.
  - rewrite (loop_lit m f pos (PrintfSpec.format_text ps)) by (auto; lia). apply PrintfProof.at_app in A.
    apply (IH ps); auto; [cbn in Lk; lia| |lia]. split; auto. split; auto.
  - congruence.
  - destruct fuel as [|g]; [lia|]. pose proof (PrintfProof.parse_directive f pos c _ A Wp) as PD. pose proof (PrintfProof.text_length c).
    assert (R : PrintfModel.rd f pos = PrintfModel.Ret 37 /\ Nat.ltb pos (length f) = true).
    { unfold PrintfSpec.text in A. cbn [app] in A. apply PrintfProof.at_cons in A as (R & Lt & _). auto. }
    destruct R as [R Lt]. cbn [VprintfModel.store_loop]. rewrite Lt, R. cbn [of_printf bind Z.eqb Pos.eqb]. rewrite PD. cbn [of_printf bind].
    cbn [PrintfSpec.conversions flat_map app] in Su, PR. fold (PrintfSpec.conversions ps) in Su, PR.
    inversion PR as [|? ? a args' x xs' P1 PR']; subst. inversion Su as [|? ? Sd Su']; subst. destruct (tidy_split _ _ _ TD) as (T1 & T2).
    destruct (conv_ok h s l c a args' x (PrintfProof.actual c) HO ST P1 Sd T1 eq_refl eq_refl) as (o & E & D). rewrite E. cbn [bind].
    destruct o as [h1|(h1, rest)]; cbn [stored] in D.
    { destruct D as (L1 & NO & l' & G). exists (- EFAULT), h1, l'. split; auto. split; auto. split; auto. split. discriminate. contradiction. }
    destruct D as (L1 & -> & y & SY & G). destruct (proj1 (conj G I)) as (HO1 & ST1 & _).
    assert (K : (exists z h' l', store_loop g h1 s f (S (pos + length (PrintfSpec.text c))) (Z.of_nat (length (l ++ [y]))) args' = Ret (z, h') /\ later h1 h' /\ goes h1 h' s (l ++ [y]) l' /\
        (z = 0 -> map shape_of l' = map shape_of (l ++ [y]) ++ xs') /\ (no_oom h1 -> z = 0)) ->
      exists z h' l', store_loop g h1 s f (S (pos + length (PrintfSpec.text c))) (Z.of_nat (length l) + 1) args' = Ret (z, h') /\ later h h' /\ goes h h' s l l' /\
        (z = 0 -> map shape_of l' = map shape_of l ++ x :: xs') /\ (no_oom h -> z = 0)).
    { intros (z & h' & l' & E1 & L2 & G2 & Q1 & Q2). exists z, h', l'. rewrite app_length in E1. cbn [length] in E1. rewrite Nat2Z.inj_add in E1. change (Z.of_nat 1) with 1 in E1.
      split; auto. split. eapply later_trans; eauto. split. eapply goes_trans; eauto. split. intros Z0. rewrite Q1, map_app, <- app_assoc; auto. cbn [map app]. rewrite SY. reflexivity.
      intros OOM. apply Q2. eapply later_oom; eauto. }
    assert (T3 := tidy_later _ _ _ L1 T2). apply PrintfProof.at_app in A. cbn [PrintfSpec.separated] in Sp. apply K. destruct Sp as [[->|(ch & m & r' & ->)] Sp].
    + change (PrintfSpec.format_text []) with (@nil Z) in A. destruct g as [|g]; [lia|]. apply PrintfProof.at_nil in A as (EA & _ & _).
      cbn [VprintfModel.store_loop]. destruct (Nat.ltb (S (pos + length (PrintfSpec.text c))) (length f)) eqn:Q9; [apply Nat.ltb_lt in Q9; lia|].
      cbn in PR'. inversion PR'; subst. exists 0, h1, (l ++ [y]). split; auto. split. apply later_refl. split. apply evolves_refl; auto. rewrite app_nil_r. auto.
    + unfold PrintfSpec.format_text in A, L. cbn [flat_map PrintfSpec.piece_text app length] in A, L. fold (PrintfSpec.format_text r') in A, L.
      apply PrintfProof.at_cons in A as (_ & _ & A). inversion F' as [|? ? Wl F'']; subst. cbn in Wl. inversion Wl; subst. inversion NP' as [|? ? _ NP'']; subst.
      apply (IH (PrintfSpec.Lit m :: r')); auto.
      * cbn in Lk |- *. lia.
      * split; auto. split; [constructor; auto|]. split; auto. constructor; auto. discriminate.
      * unfold PrintfSpec.format_text. cbn [flat_map PrintfSpec.piece_text]. fold (PrintfSpec.format_text r'). lia.
Qed.
Lemma store_ok : forall h s l ps args xs, heap_ok h -> stores h s [] -> usable ps -> prints (PrintfSpec.conversions ps) args xs -> tidy h xs -> l = [] ->
  exists z h' l', store_vprintf h s (PrintfSpec.format_text ps) args = Ret (z, h') /\ later h h' /\ goes h h' s l l' /\
    (z = 0 -> map shape_of l' = xs) /\ (no_oom h -> z = 0).
Proof.
  intros h s l ps args xs HO ST US PR TD ->. unfold VprintfModel.store_vprintf. destruct s as [|s0] eqn:ES. exfalso. apply ST. reflexivity. rewrite <- ES in *. clear ES s0.
  rewrite (PrintfProof.count_spec ps) by apply (proj1 US). cbn [of_printf bind].
  destruct (loop_pieces (length ps) ps (PrintfSpec.format_text ps) 0 (S (length (PrintfSpec.format_text ps))) h s [] args xs) as (z & h' & l' & E & Q); auto; [apply PrintfProof.at_start|lia|].
  exists z, h', l'. split; auto.
Qed.

(** a conversion that is not known *)
Lemma dispatch_some : forall c ty v, PrintfModel.dispatch (PrintfSpec.dconv c) (PrintfSpec.dlen c) = Some (ty, v) -> ~ In (PrintfSpec.dconv c) [99; 112] -> PrintfSpec.demanded c ty /\ known c.
Proof.
  intros [fl w p a c] ty v H N. cbn [PrintfSpec.dconv PrintfSpec.dlen] in *. unfold PrintfModel.dispatch in H. unfold PrintfSpec.demanded, known, PrintfSpec.table. cbn [PrintfSpec.dconv PrintfSpec.dlen].
  assert (G : forall row, In row PrintfSpec.table -> In c (fst row) -> In (a, ty) (snd row) -> (exists row0, In row0 PrintfSpec.table /\ In c (fst row0) /\ In (a, ty) (snd row0))) by eauto. fold PrintfSpec.table.
  destruct (Z.eqb_spec c 112) as [->|_]. { exfalso. apply N. cbn. auto. }
  destruct (Z.eqb_spec c 110) as [->|_]. { split. apply (G (nth 5 PrintfSpec.table ([], []))). cbn; tauto. cbn; auto. destruct a; inversion H; subst; cbn; tauto. cbn. split; intros X; lia. }
  destruct (Z.eqb_spec c 99) as [->|_]. { exfalso. apply N. cbn. auto. }
  destruct (Z.eqb_spec c 105) as [->|_]. { split. apply (G (nth 0 PrintfSpec.table ([], []))). cbn; tauto. cbn; auto. destruct a; inversion H; subst; cbn; tauto. cbn. split; intros X; lia. }
  destruct (Z.eqb_spec c 100) as [->|_]. { split. apply (G (nth 0 PrintfSpec.table ([], []))). cbn; tauto. cbn; auto. destruct a; inversion H; subst; cbn; tauto. cbn. split; intros X; lia. }
  cbn [orb] in H.
  destruct (Z.eqb_spec c 111) as [->|_]. { split. apply (G (nth 1 PrintfSpec.table ([], []))). cbn; tauto. cbn; auto. destruct a; inversion H; subst; cbn; tauto. cbn. split; intros X; lia. }
  destruct (Z.eqb_spec c 117) as [->|_]. { split. apply (G (nth 1 PrintfSpec.table ([], []))). cbn; tauto. cbn; auto. destruct a; inversion H; subst; cbn; tauto. cbn. split; intros X; lia. }
  destruct (Z.eqb_spec c 120) as [->|_]. { split. apply (G (nth 1 PrintfSpec.table ([], []))). cbn; tauto. cbn; auto. destruct a; inversion H; subst; cbn; tauto. cbn. split; intros X; lia. }
  destruct (Z.eqb_spec c 88) as [->|_]. { split. apply (G (nth 1 PrintfSpec.table ([], []))). cbn; tauto. cbn; auto. destruct a; inversion H; subst; cbn; tauto. cbn. split; intros X; lia. }
  cbn [orb] in H.
  destruct (Z.eqb_spec c 102) as [->|_]. { split. apply (G (nth 3 PrintfSpec.table ([], []))). cbn; tauto. cbn; auto. destruct a; inversion H; subst; cbn; tauto. cbn. split; [lia|]. intros (_ & ->). discriminate. }
  destruct (Z.eqb_spec c 103) as [->|_]. { split. apply (G (nth 3 PrintfSpec.table ([], []))). cbn; tauto. cbn; auto. destruct a; inversion H; subst; cbn; tauto. cbn. split; [lia|]. intros (_ & ->). discriminate. }
  destruct (Z.eqb_spec c 101) as [->|_]. { split. apply (G (nth 3 PrintfSpec.table ([], []))). cbn; tauto. cbn; auto. destruct a; inversion H; subst; cbn; tauto. cbn. split; [lia|]. intros (_ & ->). discriminate. }
  discriminate.
Qed.
Lemma conv_unknown : forall h s id c args sp, unknown c -> PrintfModel.t sp = PrintfSpec.dconv c -> PrintfModel.alen sp = PrintfSpec.dlen c -> store_conv h s id sp args = Ret (inl h).
Proof.
  intros h s id c args sp (N & U) ET EL. unfold VprintfModel.store_conv. rewrite ET, EL. destruct (Z.eqb_spec (PrintfSpec.dconv c) 115) as [E|_]. { exfalso. apply N. rewrite E. left. auto. }
  destruct (PrintfModel.dispatch _ _) as [(ty, v)|] eqn:D; auto. apply dispatch_some in D. destruct D as (D & K). exfalso. eapply U; eauto. intros I. apply N. right. auto.
Qed.
Lemma loop_breaks : forall k ps f pos fuel h s l args xs, (length ps <= k)%nat -> PrintfProof.at_ f pos (PrintfSpec.format_text ps) -> regular_format ps ->
  breaks tref cstr (PrintfSpec.conversions ps) args xs -> tidy h xs -> heap_ok h -> stores h s l -> (length (PrintfSpec.format_text ps) + 1 <= fuel)%nat ->
  exists h' l', store_loop fuel h s f pos (Z.of_nat (length l)) args = Ret (- EFAULT, h') /\ later h h' /\ goes h h' s l l'.
Proof.
  induction k as [|k IH]; intros ps f pos fuel h s l args xs Lk A US PR TD HO ST L.
  { destruct ps; [|cbn in Lk; lia]. cbn in PR. inversion PR. }
  destruct ps as [|p ps]. { cbn in PR. inversion PR. }
  destruct US as (F & Sp & NP). inversion F as [|? ? Wp F']; subst. inversion NP as [|? ? Np NP']; subst.
  unfold PrintfSpec.format_text in A, L. cbn [flat_map] in A, L. fold (PrintfSpec.format_text ps) in A, L. rewrite app_length in L.
  destruct p as [m| |c]; cbn [PrintfSpec.piece_text PrintfSpec.wf_piece] in *.
  - rewrite (loop_lit m f pos (PrintfSpec.format_text ps)) by (auto; lia). apply PrintfProof.at_app in A.
    apply (IH ps) with (xs := xs); auto; [cbn in Lk; lia| |lia]. split; auto.
  - congruence.
  - destruct fuel as [|g]; [lia|]. pose proof (PrintfProof.parse_directive f pos c _ A Wp) as PD. pose proof (PrintfProof.text_length c).
    assert (R : PrintfModel.rd f pos = PrintfModel.Ret 37 /\ Nat.ltb pos (length f) = true).
    { unfold PrintfSpec.text in A. cbn [app] in A. apply PrintfProof.at_cons in A as (R & Lt & _). auto. }
    destruct R as [R Lt]. cbn [VprintfModel.store_loop]. rewrite Lt, R. cbn [of_printf bind Z.eqb Pos.eqb]. rewrite PD. cbn [of_printf bind].
    cbn [PrintfSpec.conversions flat_map app] in PR. fold (PrintfSpec.conversions ps) in PR.
    inversion PR as [c0 l0 args0 UK|? ? a args' x xs' P1 Sd PR']; subst.
    { rewrite (conv_unknown h s _ c args (PrintfProof.actual c) UK eq_refl eq_refl). cbn [bind]. exists h, l. split; auto. split. apply later_refl. apply evolves_refl; auto. }
    destruct (tidy_split _ _ _ TD) as (T1 & T2).
    destruct (conv_ok h s l c a args' x (PrintfProof.actual c) HO ST P1 Sd T1 eq_refl eq_refl) as (o & E & D). rewrite E. cbn [bind].
    destruct o as [h1|(h1, rest)]; cbn [stored] in D.
    { destruct D as (L1 & NO & l' & G). exists h1, l'. auto. }
    destruct D as (L1 & -> & y & SY & G). destruct (proj1 (conj G I)) as (HO1 & ST1 & _).
    assert (K : (exists h' l', store_loop g h1 s f (S (pos + length (PrintfSpec.text c))) (Z.of_nat (length (l ++ [y]))) args' = Ret (- EFAULT, h') /\ later h1 h' /\ goes h1 h' s (l ++ [y]) l') ->
      exists h' l', store_loop g h1 s f (S (pos + length (PrintfSpec.text c))) (Z.of_nat (length l) + 1) args' = Ret (- EFAULT, h') /\ later h h' /\ goes h h' s l l').
    { intros (h' & l' & E1 & L2 & G2). exists h', l'. rewrite app_length in E1. cbn [length] in E1. rewrite Nat2Z.inj_add in E1. change (Z.of_nat 1) with 1 in E1.
      split; auto. split. eapply later_trans; eauto. eapply goes_trans; eauto. }
    assert (T3 := tidy_later _ _ _ L1 T2). apply PrintfProof.at_app in A. cbn [PrintfSpec.separated] in Sp. apply K. destruct Sp as [[->|(ch & m & r' & ->)] Sp].
    + cbn in PR'. inversion PR'.
    + unfold PrintfSpec.format_text in A, L. cbn [flat_map PrintfSpec.piece_text app length] in A, L. fold (PrintfSpec.format_text r') in A, L.
      apply PrintfProof.at_cons in A as (_ & _ & A). inversion F' as [|? ? Wl F'']; subst. cbn in Wl. inversion Wl; subst. inversion NP' as [|? ? _ NP'']; subst.
      apply (IH (PrintfSpec.Lit m :: r')) with (xs := xs'); auto.
      * cbn in Lk |- *. lia.
      * split; [constructor; auto|]. split; auto. constructor; auto. discriminate.
      * unfold PrintfSpec.format_text. cbn [flat_map PrintfSpec.piece_text]. fold (PrintfSpec.format_text r'). lia.
Qed.
Lemma store_breaks : forall h s ps args xs, heap_ok h -> stores h s [] -> regular_format ps -> breaks tref cstr (PrintfSpec.conversions ps) args xs -> tidy h xs ->
  exists h' l', store_vprintf h s (PrintfSpec.format_text ps) args = Ret (- EFAULT, h') /\ later h h' /\ goes h h' s [] l'.
Proof.
  intros h s ps args xs HO ST US PR TD. unfold VprintfModel.store_vprintf. destruct s as [|s0] eqn:ES. exfalso. apply ST. reflexivity. rewrite <- ES in *. clear ES s0.
  rewrite (PrintfProof.count_spec ps) by apply US. cbn [of_printf bind].
  apply (loop_breaks (length ps) ps (PrintfSpec.format_text ps) 0 (S (length (PrintfSpec.format_text ps))) h s [] args xs); auto; [apply PrintfProof.at_start|lia].
Qed.
End Vprintf.
