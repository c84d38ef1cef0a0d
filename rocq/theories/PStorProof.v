(** Proofs about parameter storages. *)
From Coq Require Import ZArith List Bool Lia ZifyBool Permutation Arith.
From Verif Require Import Base EntryModel PStorModel PStorSpec.
Import ListNotations.
Open Scope Z_scope.

Section Ind.
  Variable P : node -> Prop.
  Hypothesis HB : forall p e a b, P (NBuf p e a b).
  Hypothesis HS : forall p e s l, Forall P l -> P (NStor p e s l).
  Hypothesis HN : forall p e, P (NNull p e).
  Fixpoint node_ind2 (n : node) : P n :=
    match n with
    | NBuf p e a b => HB p e a b
    | NStor p e s l => HS p e s l ((fix go (l : list node) : Forall P l := match l with [] => Forall_nil _ | x :: r => Forall_cons _ (node_ind2 x) (go r) end) l)
    | NNull p e => HN p e
    end.
End Ind.

Lemma contents_stor : forall h p e s l, contents h (NStor p e s l) <-> entry_holds h e /\ s <> null /\ h_blk h s = Some (header l) /\ chain h l (PHead s) null.
Proof.
  intros h p e s l. cbn [contents].
  assert (E : forall l pv, (fix linked (l : list node) (pv : prev_ptr) : Prop :=
         match l with
         | [] => True
         | x :: r => nptr x <> null /\ h_blk h (nptr x) = Some (BParam (param_of x (first_of r null) pv)) /\ contents h x /\ linked r (PNext (nptr x))
         end) l pv <-> chain h l pv null).
  { clear. induction l as [|x l IH]; intros pv; cbn [chain]; [tauto|]. rewrite IH. tauto. }
  rewrite E. tauto.
Qed.
Lemma owned_stor : forall p e s l, owned (NStor p e s l) = entry_block e ++ s :: all_blocks l.
Proof. reflexivity. Qed.

Lemma all_blocks_cons : forall x l, all_blocks (x :: l) = blocks_of x ++ all_blocks l.
Proof. reflexivity. Qed.

Lemma nodup_app : forall (a b : list ptr), NoDup (a ++ b) <-> NoDup a /\ NoDup b /\ forall q, In q a -> ~ In q b.
Proof.
  induction a as [|x a IH]; intros b; cbn [app]. - split; [intros H; repeat split; auto; constructor|tauto].
  - split.
    + intros H. inversion H as [|? ? N H']; subst. apply IH in H'. destruct H' as (A & B & C). split; [constructor; auto; intros I; apply N; apply in_or_app; auto|]. split; auto.
      intros q [<-|I] J; [apply N; apply in_or_app; auto|eapply C; eauto].
    + intros (A & B & C). inversion A as [|? ? N A']; subst. constructor. intros I. apply in_app_or in I. destruct I as [I|I]; auto. apply (C x); auto. left; auto. apply IH. repeat split; auto. intros q I. apply C. right. auto.
Qed.

(** frames *)
Lemma entry_frame : forall h h' e, (forall q, In q (entry_block e) -> h_blk h' q = h_blk h q) -> entry_holds h e -> entry_holds h' e.
Proof. intros h h' [r|q x] F H; cbn in *; auto. destruct H. split; auto. rewrite F; auto. Qed.
Lemma chain_frame_strong : forall h h' l, (forall x, In x l -> (forall q, In q (owned x) -> h_blk h' q = h_blk h q) -> contents h x -> contents h' x) ->
  forall pv nx, (forall q, In q (all_blocks l) -> h_blk h' q = h_blk h q) -> chain h l pv nx -> chain h' l pv nx.
Proof.
  intros h h'. induction l as [|x l IH]; intros C pv nx F H; cbn [chain] in *; auto. destruct H as (A & B & D & E).
  assert (F1 : forall q, In q (blocks_of x) -> h_blk h' q = h_blk h q) by (intros q I; apply F; rewrite all_blocks_cons; apply in_or_app; auto).
  split; auto. split. { rewrite F1; auto. left. reflexivity. } split. { apply C; auto. left; reflexivity. intros q I. apply F1. right. auto. }
  apply IH; auto. { intros y I. apply C. right. auto. } intros q I. apply F. rewrite all_blocks_cons. apply in_or_app. auto.
Qed.
Lemma contents_frame : forall h h' n, (forall q, In q (owned n) -> h_blk h' q = h_blk h q) -> contents h n -> contents h' n.
Proof.
  intros h h' n. induction n as [p e a b|p e s l FA|p e] using node_ind2; intros F H.
  - cbn in *. destruct H as (A & B & C & D). split. { apply (entry_frame h); auto. intros q I. apply F. apply in_or_app. auto. }
    repeat split; auto. rewrite F; auto. apply in_or_app. right. left. auto.
  - rewrite owned_stor in F. apply contents_stor in H. apply contents_stor. destruct H as (A & B & C & D). split. { apply (entry_frame h); auto. intros q I. apply F. apply in_or_app. auto. }
    split; auto. split. { rewrite F; auto. apply in_or_app. right. left. auto. }
    rewrite Forall_forall in FA. apply (chain_frame_strong h); auto. intros q I. apply F. apply in_or_app. right. right. auto.
  - cbn in *. apply (entry_frame h); auto.
Qed.
Lemma chain_frame : forall h h' l pv nx, (forall q, In q (all_blocks l) -> h_blk h' q = h_blk h q) -> chain h l pv nx -> chain h' l pv nx.
Proof. intros h h' l pv nx. apply chain_frame_strong. intros x _. apply contents_frame. Qed.
Lemma chain_app : forall h a b pv nx, chain h (a ++ b) pv nx <-> chain h a pv (first_of b nx) /\ chain h b (match a with [] => pv | _ => PNext (last_of a null) end) nx.
Proof.
  intros h. induction a as [|x a IH]; intros b pv nx; cbn [app chain first_of]; [tauto|]. rewrite IH.
  assert (E1 : first_of (a ++ b) nx = first_of a (first_of b nx)) by (destruct a; reflexivity).
  assert (E2 : match a with [] => PNext (nptr x) | _ => PNext (last_of a null) end = PNext (last_of (x :: a) null)) by (destruct a; reflexivity).
  rewrite E1, E2. tauto.
Qed.
Lemma all_blocks_app : forall a b, all_blocks (a ++ b) = all_blocks a ++ all_blocks b.
Proof. intros. unfold all_blocks. apply flat_map_app. Qed.

(** blocks of a represented storage are allocated *)
Lemma entry_live : forall h e q, entry_holds h e -> In q (entry_block e) -> h_blk h q <> None /\ q <> null.
Proof. intros h [r|p x] q H I; cbn in *; [destruct I|]. destruct I as [<-|[]]. destruct H as (A & ->). split; auto. discriminate. Qed.
Lemma chain_live_strong : forall h l, (forall x, In x l -> forall q, contents h x -> In q (owned x) -> h_blk h q <> None /\ q <> null) ->
  forall pv nx q, chain h l pv nx -> In q (all_blocks l) -> h_blk h q <> None /\ q <> null.
Proof.
  intros h. induction l as [|x l IH]; intros C pv nx q H I; cbn [chain] in H; [destruct I|]. destruct H as (A & B & D & E). rewrite all_blocks_cons in I. cbn [blocks_of app] in I.
  destruct I as [<-|I]. { rewrite B. split; auto. discriminate. } apply in_app_or in I. destruct I as [I|I].
  - apply (C x); auto. left. reflexivity.
  - eapply IH; eauto. intros y J. apply C. right. auto.
Qed.
Lemma contents_live : forall h n q, contents h n -> In q (owned n) -> h_blk h q <> None /\ q <> null.
Proof.
  intros h n. induction n as [p e a b|p e s l FA|p e] using node_ind2; intros q H I.
  - cbn in H, I. destruct H as (A & B & C & D). apply in_app_or in I. destruct I as [I|[<-|[]]]. eapply entry_live; eauto. rewrite D. split; auto. discriminate.
  - rewrite owned_stor in I. apply contents_stor in H. destruct H as (A & B & C & D). apply in_app_or in I. destruct I as [I|[<-|I]].
    + eapply entry_live; eauto. + rewrite C. split; auto. discriminate. + rewrite Forall_forall in FA. eapply chain_live_strong; eauto.
  - cbn in H, I. eapply entry_live; eauto.
Qed.
Lemma chain_live : forall h l pv nx q, chain h l pv nx -> In q (all_blocks l) -> h_blk h q <> None /\ q <> null.
Proof. intros h l. apply chain_live_strong. intros x _ q. apply contents_live. Qed.
Lemma live_old : forall h q, heap_ok h -> h_blk h q <> None -> (q < h_next h)%nat.
Proof. intros h q (_ & _ & F) L. destruct (Nat.lt_ge_cases q (h_next h)); auto. exfalso. apply L. auto. Qed.

(** the heap operations *)
Lemma blk_write : forall h p b q, h_blk (write h p b) q = if Nat.eqb q p then Some b else h_blk h q.
Proof. reflexivity. Qed.
Ltac neqs := repeat match goal with |- context [Nat.eqb ?a ?b] => destruct (Nat.eqb_spec a b); [try congruence; try (subst; congruence)|] end.
Lemma write_same : forall h p b, h_blk (write h p b) p = Some b.
Proof. intros. rewrite blk_write, Nat.eqb_refl. reflexivity. Qed.
Lemma write_other : forall h p b q, q <> p -> h_blk (write h p b) q = h_blk h q.
Proof. intros. rewrite blk_write. destruct (Nat.eqb_spec q p); congruence. Qed.
Lemma get_param_ok : forall h p x, h_blk h p = Some (BParam x) -> get_param h p = Ret x.
Proof. intros h p x H. unfold get_param. rewrite H. reflexivity. Qed.
Lemma get_storage_ok : forall h p x, h_blk h p = Some (BStorage x) -> get_storage h p = Ret x.
Proof. intros h p x H. unfold get_storage. rewrite H. reflexivity. Qed.
Lemma write_ok : forall h p b, heap_ok h -> (p < h_next h)%nat -> p <> null -> heap_ok (write h p b).
Proof.
  intros h p b (A & B & C) L N. split; [exact A|]. split. - rewrite write_other; auto. - intros q Q. cbn [write h_next] in Q. rewrite write_other. auto. lia.
Qed.
Lemma alloc_spec : forall h b p h', heap_ok h -> alloc h b = (p, h') -> heap_ok h' /\ h_ok h' = h_ok h /\ h_next h' = S (h_next h) /\
  ((p = null /\ h_ok h (h_next h) = false /\ forall q, h_blk h' q = h_blk h q) \/
   (p <> null /\ p = h_next h /\ h_blk h' p = Some b /\ forall q, q <> p -> h_blk h' q = h_blk h q)).
Proof.
  intros h b p h' (A & B & C) H. unfold alloc in H. destruct (h_ok h (h_next h)) eqn:O; injection H as <- <-.
  - split. { split; [cbn; lia|]. split. + cbn. unfold upd. destruct (Nat.eqb_spec null (h_next h)). unfold null in *. lia. auto. + cbn. intros q Q. unfold upd. destruct (Nat.eqb_spec q (h_next h)). lia. apply C. lia. }
    split; auto. split; auto. right. unfold null. split; [lia|]. split; auto. cbn. unfold upd. rewrite Nat.eqb_refl. split; auto. intros q Q. destruct (Nat.eqb_spec q (h_next h)); congruence.
  - split. { split; [cbn; lia|]. split; auto. cbn. intros q Q. apply C. lia. } split; auto.
Qed.
Lemma free_ok : forall h p, h_blk h p <> None -> p <> null -> exists h', free h p = Ret h' /\ h_next h' = h_next h /\ h_ok h' = h_ok h /\ h_blk h' p = None /\ forall q, q <> p -> h_blk h' q = h_blk h q.
Proof.
  intros h [|p] L N; [exfalso; apply N; reflexivity|]. cbn [free]. destruct (h_blk h (S p)); [|congruence]. eexists. split; [reflexivity|]. cbn [h_next h_ok h_blk]. unfold upd. rewrite Nat.eqb_refl. repeat split; auto.
  intros q Q. destruct (Nat.eqb_spec q (S p)); congruence.
Qed.

(** linking a new element *)
Lemma insert_head_ok : forall h s p st x, h_blk h s = Some (BStorage st) -> s_first st = null -> h_blk h p = Some (BParam x) -> s <> p ->
  exists h', insert_head h s p = Ret h' /\ h_next h' = h_next h /\ h_ok h' = h_ok h /\
    h_blk h' s = Some (BStorage (Build_storage p (s_size st) (s_last st))) /\
    h_blk h' p = Some (BParam (Build_param (p_size x) (p_entry x) (p_addr x) null (PHead s))) /\
    forall q, q <> s -> q <> p -> h_blk h' q = h_blk h q.
Proof.
  intros h s p st x S F P N. unfold insert_head. rewrite (get_storage_ok _ _ _ S). cbn [bind]. rewrite (get_param_ok _ _ _ P). cbn [bind]. rewrite F. unfold null at 1. cbn [bind].
  erewrite get_param_ok. 2:{ rewrite write_other by congruence. apply write_same. } cbn [bind p_size p_entry p_addr p_next]. eexists. split; [reflexivity|]. split; [reflexivity|]. split; [reflexivity|].
  split. { rewrite write_other, write_same by congruence. reflexivity. } split. { rewrite write_same. reflexivity. }
  intros q Q1 Q2. rewrite !write_other by congruence. reflexivity.
Qed.
Lemma insert_after_ok : forall h l p le x, h_blk h l = Some (BParam le) -> p_next le = null -> h_blk h p = Some (BParam x) -> l <> p ->
  exists h', insert_after h l p = Ret h' /\ h_next h' = h_next h /\ h_ok h' = h_ok h /\
    h_blk h' l = Some (BParam (Build_param (p_size le) (p_entry le) (p_addr le) p (p_prev le))) /\
    h_blk h' p = Some (BParam (Build_param (p_size x) (p_entry x) (p_addr x) null (PNext l))) /\
    forall q, q <> l -> q <> p -> h_blk h' q = h_blk h q.
Proof.
  intros h l p le x L F P N. unfold insert_after. rewrite (get_param_ok _ _ _ L). cbn [bind]. rewrite (get_param_ok _ _ _ P). cbn [bind]. rewrite F. unfold null at 1. cbn [bind].
  erewrite get_param_ok. 2:{ rewrite write_other by congruence. exact L. } cbn [bind].
  erewrite get_param_ok. 2:{ rewrite write_other by congruence. apply write_same. } cbn [bind p_size p_entry p_addr p_next]. eexists. split; [reflexivity|]. split; [reflexivity|]. split; [reflexivity|].
  split. { rewrite write_other, write_same by congruence. reflexivity. } split. { rewrite write_same. reflexivity. }
  intros q Q1 Q2. rewrite !write_other by congruence. reflexivity.
Qed.
Lemma last_of_app : forall l x d, last_of (l ++ [x]) d = nptr x.
Proof. intros. unfold last_of. rewrite map_app. cbn. apply last_last. Qed.
Lemma first_of_app : forall l x d, first_of (l ++ [x]) d = match l with [] => nptr x | y :: _ => nptr y end.
Proof. intros [|y l] x d; reflexivity. Qed.

(** a node that stands for the new element *)
Definition stands (x : node) (p : ptr) (e : pentry) (a : ptr) (sz : Z) : Prop := nptr x = p /\ nentry x = e /\ naddr x = a /\ nsize x = sz.
Lemma append_spec : forall h s l sz e m a, heap_ok h -> stores h s l -> entry_src h e m ->
  exists p h', append h s sz e a = Ret (p, h') /\ heap_ok h' /\ h_ok h' = h_ok h /\ (h_next h < h_next h')%nat /\
  ((p = null /\ ~ no_oom h /\ forall q, h_blk h' q = h_blk h q) \/
   (p <> null /\ exists pe, entry_of pe = m /\ entry_holds h' pe /\ NoDup (p :: entry_block pe) /\
      (forall q, In q (p :: entry_block pe) -> (h_next h <= q < h_next h')%nat) /\
      (forall q, q <> s -> ~ In q (map nptr l) -> ~ In q (p :: entry_block pe) -> h_blk h' q = h_blk h q) /\
      (forall x, stands x p pe a sz -> contents h' x -> chain h' (l ++ [x]) (PHead s) null /\ h_blk h' s = Some (header (l ++ [x]))))).
Proof.
  intros h s l sz e m a HO (SN & SB & CH & ND) ES. unfold append. destruct s as [|s0] eqn:ES0; [exfalso; apply SN; reflexivity|]. rewrite <- ES0 in *. clear ES0 s0.
  assert (HOn : h_blk h null = None) by (destruct HO as (_ & X & _); exact X). assert (HOf : forall q, (h_next h <= q)%nat -> h_blk h q = None) by (destruct HO as (_ & _ & X); exact X).
  assert (SO : (s < h_next h)%nat). { apply live_old; auto. rewrite SB. discriminate. }
  assert (LO : forall q, In q (all_blocks l) -> (q < h_next h)%nat). { intros q I. apply live_old; auto. eapply chain_live; eauto. }
  destruct (alloc h _) as (p, h1) eqn:A1. destruct (alloc_spec _ _ _ _ HO A1) as (HO1 & OK1 & N1 & [(-> & OF & B1)|(PN & PE & BP & B1)]).
  { exists null, h1. cbn. split; [reflexivity|]. repeat (split; [solve [auto|lia]|]). left. split; auto. split; auto. intros X. rewrite X in OF; [discriminate|lia]. }
  destruct p as [|p0] eqn:EP; [exfalso; apply PN; reflexivity|]. rewrite <- EP in *. clear EP p0.
  (* the copy of the entry *)
  assert (EC : exists c h2, (match e with EStatic _ => Ret (null, h1) | EBlock q => new_entry h1 q end) = Ret (c, h2) /\ heap_ok h2 /\ h_ok h2 = h_ok h /\ (h_next h1 <= h_next h2)%nat /\
     ((is_dynamic e = true /\ c = null /\ ~ no_oom h /\ forall q, h_blk h2 q = h_blk h1 q) \/
      exists pe, (is_dynamic e && Nat.eqb c null = false) /\ raw_entry pe = (match e with EStatic r => EStatic r | EBlock _ => EBlock c end) /\ entry_of pe = m /\ entry_holds h2 pe /\
        (forall q, In q (entry_block pe) -> (h_next h1 <= q < h_next h2)%nat) /\ NoDup (entry_block pe) /\ forall q, ~ In q (entry_block pe) -> h_blk h2 q = h_blk h1 q)).
  { destruct e as [r|q].
    - exists null, h1. split; [reflexivity|]. split; auto. split; auto. split; auto. right. exists (PStatic r). destruct m; [|destruct ES]. cbn in ES. subst.
      cbn. repeat split; auto; try tauto. constructor.
    - destruct m as [|x]; [destruct ES|]. cbn in ES. assert (Q : (q < h_next h)%nat). { apply live_old; auto. rewrite ES. discriminate. }
      assert (Q1 : h_blk h1 q = Some (BEntry x)) by (rewrite B1; auto; lia). unfold new_entry, get_entry. rewrite Q1. cbn [bind]. destruct (alloc h1 (BEntry x)) as (c, h2) eqn:A2.
      exists c, h2. split; [reflexivity|]. destruct (alloc_spec _ _ _ _ HO1 A2) as (HO2 & OK2 & N2 & [(-> & OF & B2)|(CN & CE & BC & B2)]); (split; [auto|split; [congruence|split; [lia|]]]).
      + left. split; auto. split; auto. split; auto. intros X. assert (h_ok h (h_next h1) = true) by (apply X; lia). congruence.
      + right. exists (PDyn c x). cbn [is_dynamic andb raw_entry entry_of entry_holds entry_block]. destruct (Nat.eqb_spec c null); [congruence|]. repeat split; auto; try (destruct H as [<-|[]]; lia).
        repeat constructor. intros []. intros q0 Q0. apply B2. intros ->. apply Q0. left. auto. }
  destruct EC as (c & h2 & -> & HO2 & OK2 & N2 & EC). cbn [bind]. destruct EC as [(D & -> & NO & B2)|(pe & D & RE & EM & EH & EB & END & B2)].
  { rewrite D. cbn [andb]. change (Nat.eqb null null) with true. cbn iota.
    destruct (free_ok h2 p) as (h3 & -> & N3 & OK3 & F1 & F2); auto. { rewrite B2, BP. discriminate. } cbn [bind].
    exists null, h3. split; [reflexivity|]. assert (SAME : forall q, h_blk h3 q = h_blk h q). { intros q. destruct (Nat.eq_dec q p) as [->|NE]. rewrite F1. symmetry. apply HOf. lia. rewrite F2, B2, B1; auto. }
    split. { split; [lia|]. split. rewrite SAME. exact HOn. intros q Q. rewrite SAME. apply HOf. lia. } split; [congruence|]. split; [lia|]. left. auto. }
  rewrite D. rewrite <- RE. clear D RE.
  set (h3 := write h2 p (BParam (Build_param sz (raw_entry pe) a null (PHead null)))).
  assert (SP : s <> p) by lia. assert (SE : ~ In s (entry_block pe)) by (intros I; apply EB in I; lia). assert (PEB : ~ In p (entry_block pe)) by (intros I; apply EB in I; lia).
  assert (OLD3 : forall q, (q < h_next h)%nat -> h_blk h3 q = h_blk h q).
  { intros q Q. unfold h3. rewrite write_other by lia. rewrite B2. apply B1. lia. intros I. apply EB in I. lia. }
  assert (S3 : h_blk h3 s = Some (header l)) by (rewrite OLD3; auto). unfold header in S3.
  rewrite (get_storage_ok _ _ _ S3). cbn [bind s_last s_first s_size].
  assert (P3 : h_blk h3 p = Some (BParam (Build_param sz (raw_entry pe) a null (PHead null)))) by apply write_same.
  assert (LINK : exists h4, (match last_of l null with O => insert_head h3 s p | S _ as l0 => insert_after h3 l0 p end) = Ret h4 /\ h_next h4 = h_next h2 /\ h_ok h4 = h_ok h2 /\
     (exists st, h_blk h4 s = Some (BStorage st) /\ s_first st = match l with [] => p | y :: _ => nptr y end /\ s_size st = Z.of_nat (length l)) /\
     h_blk h4 p = Some (BParam (Build_param sz (raw_entry pe) a null (match l with [] => PHead s | _ => PNext (last_of l null) end))) /\
     chain h4 l (PHead s) p /\ (forall q, q <> s -> ~ In q (map nptr l) -> q <> p -> h_blk h4 q = h_blk h3 q)).
  { destruct l as [|x0 l0] using rev_ind.
    - cbn [last_of map last]. unfold null at 1. destruct (insert_head_ok h3 s p _ _ S3 eq_refl P3 SP) as (h4 & -> & N4 & OK4 & T1 & T2 & T3). exists h4. split; [reflexivity|].
      repeat (split; [solve [auto]|]). split. { eexists. split; [exact T1|]. split; reflexivity. } split. { exact T2. } split. { exact I. } intros; apply T3; auto.
    - clear IHl0. rewrite last_of_app in *. apply chain_app in CH. destruct CH as (C0 & CX). cbn [chain first_of] in C0, CX. destruct CX as (XN & XB & XC & _).
      destruct (nptr x0) as [|x1] eqn:EX; [exfalso; apply XN; reflexivity|]. rewrite <- EX in *. clear EX x1.
      assert (XO : (nptr x0 < h_next h)%nat). { apply LO. rewrite all_blocks_app. apply in_or_app. right. left. reflexivity. }
      assert (X3 : h_blk h3 (nptr x0) = Some (BParam (param_of x0 null (match l0 with [] => PHead s | _ => PNext (last_of l0 null) end)))) by (rewrite OLD3; auto).
      destruct (insert_after_ok h3 (nptr x0) p _ _ X3 eq_refl P3) as (h4 & -> & N4 & OK4 & T1 & T2 & T3); [lia|]. exists h4. split; [reflexivity|]. repeat (split; [solve [auto]|]).
      assert (NI : NoDup (all_blocks l0 ++ blocks_of x0)). { inversion ND; subst. rewrite all_blocks_app in H2. cbn [all_blocks flat_map] in H2. rewrite app_nil_r in H2. exact H2. }
      assert (NS : ~ In s (all_blocks (l0 ++ [x0]))) by (inversion ND; auto).
      assert (DJ : forall q, In q (all_blocks l0) -> q <> nptr x0). { intros q I ->. apply (NoDup_remove_2 (all_blocks l0) (owned x0) (nptr x0)). exact NI. apply in_or_app. auto. }
      assert (DX : forall q, In q (owned x0) -> q <> nptr x0). { intros q I ->. apply (NoDup_remove_2 (all_blocks l0) (owned x0) (nptr x0)). exact NI. apply in_or_app. auto. }
      assert (KEEP : forall q, (q < h_next h)%nat -> q <> nptr x0 -> h_blk h4 q = h_blk h q). { intros q Q1 Q2. rewrite T3 by (auto; lia). apply OLD3. auto. }
      split. { eexists. rewrite KEEP; auto. split; [exact SB|]. split. destruct l0; reflexivity. reflexivity. intros E. apply NS. rewrite all_blocks_app. apply in_or_app. right. left. auto. }
      split. { rewrite T2. destruct (l0 ++ [x0]) eqn:E. destruct l0; discriminate. reflexivity. }
      split. { apply chain_app. split.
        - cbn [first_of]. apply (chain_frame h); auto. intros q I. apply KEEP; auto. apply LO. rewrite all_blocks_app. apply in_or_app. auto.
        - cbn [chain first_of]. split; auto. split. { exact T1. } split; auto. apply (contents_frame h); auto. intros q I. apply KEEP; auto. apply LO. rewrite all_blocks_app. apply in_or_app. right. right. cbn. rewrite app_nil_r. auto. }
      intros q Q1 Q2 Q3. apply T3; auto. intros ->. apply Q2. rewrite map_app. apply in_or_app. right. left. auto. }
  destruct LINK as (h4 & -> & N4 & OK4 & (st & T1 & TF & TS) & T2 & T3 & T4). cbn [bind]. rewrite (get_storage_ok _ _ _ T1). cbn [bind]. rewrite TF, TS.
  exists p. eexists. split; [reflexivity|]. set (h5 := write h4 s _).
  assert (NIL : ~ In s (map nptr l)). { intros I. inversion ND as [|? ? NIs _]. apply NIs. apply in_map_iff in I. destruct I as (y & <- & Iy). apply in_flat_map. exists y. split; auto. left. auto. }
  assert (NPL : ~ In p (map nptr l)). { intros I. apply in_map_iff in I. destruct I as (y & E & Iy). assert (p < h_next h)%nat; [|lia]. rewrite <- E. apply LO. apply in_flat_map. exists y. split; auto. left. auto. }
  assert (K5 : forall q, q <> s -> ~ In q (map nptr l) -> ~ In q (p :: entry_block pe) -> h_blk h5 q = h_blk h q).
  { intros q Q1 Q2 Q3. unfold h5. rewrite write_other by auto. rewrite T4; auto. 2:{ intros ->. apply Q3. left. auto. }
    unfold h3. rewrite write_other. 2:{ intros ->. apply Q3. left. auto. } rewrite B2. 2:{ intros I. apply Q3. right. auto. } apply B1. intros ->. apply Q3. left. auto. }
  assert (N5 : h_next h5 = h_next h2) by (unfold h5; cbn [write h_next]; auto).
  split. { split; [lia|]. split.
    - rewrite K5. exact HOn. congruence. + intros I. apply in_map_iff in I. destruct I as (y & E & Iy). eapply (chain_live h l _ _ (nptr y)); eauto. apply in_flat_map. exists y. split; auto. left; auto.
      + intros [E|I]; [congruence|]. apply EB in I. unfold null in I. lia.
    - intros q Q. rewrite K5. apply HOf. lia. lia. + intros I. apply in_map_iff in I. destruct I as (y & E & Iy). assert (q < h_next h)%nat; [|lia]. rewrite <- E. apply LO. apply in_flat_map. exists y. split; auto. left. auto.
      + intros [E|I]; [lia|]. apply EB in I. lia. }
  split; [unfold h5; cbn [write h_ok]; congruence|]. split; [lia|]. right. split; auto. exists pe. split; auto.
  split. { apply (entry_frame h2); auto. intros q I. unfold h5. rewrite write_other by (intros ->; auto). rewrite T4. unfold h3. rewrite write_other; auto. all: try (intros ->; auto; fail).
    intros J. apply in_map_iff in J. destruct J as (y & E & Iy). assert (q < h_next h)%nat. { rewrite <- E. apply LO. apply in_flat_map. exists y. split; auto. left. auto. } apply EB in I. lia. }
  split. { constructor; auto. } split. { intros q [<-|I]. lia. apply EB in I. lia. } split; auto.
  intros x (X1 & X2 & X3 & X4) XC. assert (PC : h_blk h5 p = h_blk h4 p) by (unfold h5; rewrite write_other; auto).
  split.
  - apply chain_app. cbn [first_of chain]. rewrite X1. split.
    + apply (chain_frame h4); auto. intros q I. unfold h5. apply write_other. intros ->. inversion ND. auto.
    + split; auto. split; auto. rewrite PC, T2. unfold param_of. rewrite X2, X3, X4. reflexivity.
  - unfold h5. rewrite write_same. unfold header. rewrite last_of_app, first_of_app, X1, app_length. cbn [length]. rewrite Nat2Z.inj_add. destruct l; reflexivity.
Qed.

(** cleanup and delete *)
Fixpoint weight (n : node) : nat :=
  match n with NBuf _ _ _ _ => 1%nat | NNull _ _ => 1%nat | NStor _ _ _ l => (2 + fold_right (fun x k => weight x + k) 0 l)%nat end.
Definition weights (l : list node) : nat := fold_right (fun x k => (weight x + k)%nat) 0%nat l.
Lemma free_null : forall h, free h null = Ret h.
Proof. reflexivity. Qed.
Lemma entry_delete_ok : forall h e, entry_holds h e -> exists h', entry_delete h (raw_entry e) = Ret h' /\ h_next h' = h_next h /\ h_ok h' = h_ok h /\
  (forall q, In q (entry_block e) -> h_blk h' q = None) /\ forall q, ~ In q (entry_block e) -> h_blk h' q = h_blk h q.
Proof.
  intros h [r|q x] H; cbn [entry_delete raw_entry entry_block].
  - exists h. repeat split; auto. intros q [].
  - destruct H as (N & B). destruct (free_ok h q) as (h' & -> & N1 & O1 & F1 & F2); auto. rewrite B. discriminate. exists h'. repeat split; auto. intros q0 [<-|[]]; auto. intros q0 I. apply F2. intros ->. apply I. left; auto.
Qed.
Lemma list_remove_first : forall h s st x r, h_blk h s = Some (BStorage st) -> h_blk h (nptr x) = Some (BParam (param_of x (first_of r null) (PHead s))) ->
  chain h r (PNext (nptr x)) null -> NoDup (s :: nptr x :: all_blocks r) ->
  exists h', list_remove h (nptr x) = Ret h' /\ h_next h' = h_next h /\ h_ok h' = h_ok h /\ h_blk h' s = Some (BStorage (Build_storage (first_of r null) (s_size st) (s_last st))) /\
    chain h' r (PHead s) null /\ forall q, q <> s -> ~ In q (all_blocks r) -> h_blk h' q = h_blk h q.
Proof.
  intros h s st x r S X C ND. inversion ND as [|? ? NS ND1]; subst. inversion ND1 as [|? ? NX ND2]; subst. unfold list_remove. rewrite (get_param_ok _ _ _ X). cbn [bind param_of p_next p_prev].
  destruct r as [|y r].
  - cbn [first_of]. unfold null at 1. cbn [bind]. rewrite (get_storage_ok _ _ _ S). cbn [bind]. eexists. split; [reflexivity|]. split; [reflexivity|]. split; [reflexivity|].
    split; [apply write_same|]. split; [exact I|]. intros q Q _. apply write_other. auto.
  - cbn [first_of chain] in *. destruct C as (YN & YB & YC & C). destruct (nptr y) as [|y1] eqn:EY; [exfalso; apply YN; reflexivity|]. rewrite <- EY in *. clear EY y1.
    rewrite (get_param_ok _ _ _ YB). cbn [bind].
    assert (SY : s <> nptr y). { intros ->. apply NS. right. left. auto. }
    rewrite all_blocks_cons in *. cbn [blocks_of app] in *. inversion ND2 as [|? ? NY ND3]; subst.
    erewrite get_storage_ok. 2:{ rewrite write_other by auto. exact S. } cbn [bind]. eexists. split; [reflexivity|]. split; [reflexivity|]. split; [reflexivity|].
    split; [apply write_same|]. split.
    + assert (KEEP : forall q, In q (owned y ++ all_blocks r) -> h_blk (write (write h (nptr y) (BParam (Build_param (p_size (param_of y (first_of r null) (PNext (nptr x)))) (p_entry (param_of y (first_of r null) (PNext (nptr x)))) (p_addr (param_of y (first_of r null) (PNext (nptr x)))) (p_next (param_of y (first_of r null) (PNext (nptr x)))) (PHead s)))) s (BStorage (Build_storage (nptr y) (s_size st) (s_last st)))) q = h_blk h q).
      { intros q I. rewrite !write_other; auto. intros ->. auto. intros ->. apply NS. right. right. auto. }
      split; auto. split. { rewrite write_other, write_same by auto. reflexivity. }
      split. { apply (contents_frame h); auto. intros q I. apply KEEP. apply in_or_app. auto. } apply (chain_frame h); auto. intros q I. apply KEEP. apply in_or_app. auto.
    + intros q Q1 Q2. rewrite !write_other; auto. intros ->. apply Q2. left. auto.
Qed.
Lemma cleanup_spec : forall n h s l sz la, s <> null -> h_blk h s = Some (BStorage (Build_storage (first_of l null) sz la)) -> chain h l (PHead s) null ->
  NoDup (s :: all_blocks l) -> (weights l < n)%nat ->
  exists h', cleanup n h s = Ret h' /\ h_next h' = h_next h /\ h_ok h' = h_ok h /\ h_blk h' s = Some (header []) /\
    (forall q, In q (all_blocks l) -> h_blk h' q = None) /\ forall q, q <> s -> ~ In q (all_blocks l) -> h_blk h' q = h_blk h q.
Proof.
  induction n as [|n IH]; intros h s l sz la SN SB CH ND W; [lia|]. cbn [cleanup]. destruct s as [|s0] eqn:ES0; [exfalso; apply SN; reflexivity|]. rewrite <- ES0 in *. clear ES0 s0.
  rewrite (get_storage_ok _ _ _ SB). cbn [bind s_first]. destruct l as [|x r].
  { cbn [first_of]. unfold null at 1. eexists. split; [reflexivity|]. split; [reflexivity|]. split; [reflexivity|]. split; [apply write_same|]. split. intros q []. intros q Q _. apply write_other. auto. }
  cbn [first_of]. cbn [chain] in CH. destruct CH as (XN & XB & XC & CH). destruct (nptr x) as [|x1] eqn:EX; [exfalso; apply XN; reflexivity|]. rewrite <- EX in *. clear EX x1.
  rewrite (get_param_ok _ _ _ XB). cbn [bind param_of p_size p_addr p_entry]. rewrite all_blocks_cons in *. cbn [blocks_of app] in *.
  inversion ND as [|? ? NS ND1]; subst. inversion ND1 as [|? ? NX ND2]; subst.
  assert (NDo : NoDup (owned x)) by (apply nodup_app in ND2; tauto).
  assert (DJ : forall q, In q (owned x) -> ~ In q (all_blocks r)). { apply nodup_app in ND2. apply ND2. }
  (* release the content and the entry *)
  assert (REL : exists h2, (do h1 <- (if nsize x =? 0 then match naddr x with O => Ret h | S _ as q => do h' <- cleanup n h q; free h' q end else free h (naddr x)); entry_delete h1 (raw_entry (nentry x)))%res = Ret h2 /\
     h_next h2 = h_next h /\ h_ok h2 = h_ok h /\ (forall q, In q (owned x) -> h_blk h2 q = None) /\ forall q, ~ In q (owned x) -> h_blk h2 q = h_blk h q).
  { destruct x as [p e a b|p e s' l'|p e]; cbn [nsize naddr nentry].
    - cbn [contents] in XC. destruct XC as (EH & AN & BN & AB). destruct (Z.eqb_spec (Z.of_nat (length b)) 0) as [Z0|_]. { destruct b; cbn in Z0; [congruence|lia]. }
      destruct (free_ok h a) as (h1 & -> & N1 & O1 & F1 & F2); auto. { rewrite AB. discriminate. } cbn [bind].
      cbn [owned] in NDo |- *. apply NoDup_remove_2 in NDo. rewrite app_nil_r in NDo.
      destruct (entry_delete_ok h1 e) as (h2 & -> & N2 & O2 & G1 & G2). { apply (entry_frame h); auto. intros q I. apply F2. intros ->. auto. }
      exists h2. split; [reflexivity|]. split; [congruence|]. split; [congruence|]. split.
      + intros q I. destruct (in_dec Nat.eq_dec q (entry_block e)) as [J|J]; auto. rewrite G2 by auto. apply in_app_or in I. destruct I as [I|[<-|[]]]; auto. contradiction.
      + intros q I. rewrite G2, F2; auto. intros ->. apply I. apply in_or_app. right. left. auto. intros J. apply I. apply in_or_app. auto.
    - change (0 =? 0) with true. cbn iota. apply contents_stor in XC. destruct XC as (EH & SN' & SB' & CH'). destruct s' as [|s1] eqn:ES1; [exfalso; apply SN'; reflexivity|]. rewrite <- ES1 in *. clear ES1 s1.
      rewrite owned_stor in NDo |- *. assert (ND' : NoDup (s' :: all_blocks l')) by (apply nodup_app in NDo; tauto).
      assert (ED : forall q, In q (entry_block e) -> q <> s' /\ ~ In q (all_blocks l')). { intros q I. apply nodup_app in NDo. destruct NDo as (_ & _ & X). split. intros ->. apply (X s' I). left. auto. intros J. apply (X q I). right. auto. }
      destruct (IH h s' l' _ _ SN' SB' CH' ND') as (h1 & -> & N1 & O1 & T1 & T2 & T3). { cbn [weights fold_right weight] in W. unfold weights. lia. } cbn [bind].
      destruct (free_ok h1 s') as (h1' & -> & N1' & O1' & F1 & F2); auto. { rewrite T1. discriminate. } cbn [bind].
      destruct (entry_delete_ok h1' e) as (h2 & -> & N2 & O2 & G1 & G2). { apply (entry_frame h); auto. intros q I. destruct (ED q I). rewrite F2, T3; auto. }
      exists h2. split; [reflexivity|]. split; [congruence|]. split; [congruence|]. split.
      + intros q I. destruct (in_dec Nat.eq_dec q (entry_block e)) as [J|J]; auto. rewrite G2 by auto. apply in_app_or in I. destruct I as [I|[<-|I]]; auto. contradiction. rewrite F2; auto. intros ->. inversion ND'. auto.
      + intros q I. assert (~ In q (entry_block e) /\ q <> s' /\ ~ In q (all_blocks l')) as (I1 & I2 & I3). { repeat split. intros J. apply I. apply in_or_app. auto. intros ->. apply I. apply in_or_app. right. left. auto. intros J. apply I. apply in_or_app. right. right. auto. }
        rewrite G2, F2, T3; auto.
    - change (0 =? 0) with true. cbn iota. unfold null at 1. cbn [bind]. cbn [contents] in XC. cbn [owned].
      destruct (entry_delete_ok h e XC) as (h2 & -> & N2 & O2 & G1 & G2). exists h2. auto 8. }
  destruct REL as (h2 & REL & N2 & O2 & R1 & R2). destruct (if nsize x =? 0 then _ else _) as [h1| | |]; try discriminate. cbn [bind] in REL |- *. rewrite REL. cbn [bind]. clear REL h1.
  assert (XO : ~ In (nptr x) (owned x)). { intros I. apply NX. apply in_or_app. auto. } assert (SO : ~ In s (owned x)). { intros I. apply NS. right. apply in_or_app. auto. }
  assert (X2 : h_blk h2 (nptr x) = Some (BParam (param_of x (first_of r null) (PHead s)))) by (rewrite R2; auto).
  assert (S2 : h_blk h2 s = Some (BStorage (Build_storage (nptr x) sz la))) by (rewrite R2; auto).
  assert (C2 : chain h2 r (PNext (nptr x)) null). { apply (chain_frame h); auto. intros q I. apply R2. intros J. eapply DJ; eauto. }
  assert (ND' : NoDup (s :: nptr x :: all_blocks r)). { constructor. intros [E|I]. apply NS. left. auto. apply NS. right. apply in_or_app. auto. constructor. intros I. apply NX. apply in_or_app. auto. apply nodup_app in ND2; tauto. }
  destruct (list_remove_first _ _ _ _ _ S2 X2 C2 ND') as (h3 & -> & N3 & O3 & S3 & C3 & K3). cbn [bind].
  assert (XR : ~ In (nptr x) (all_blocks r)) by (intros I; apply NX; apply in_or_app; auto). assert (XS : nptr x <> s) by (intros E; apply NS; left; auto).
  destruct (free_ok h3 (nptr x)) as (h4 & -> & N4 & O4 & F1 & F2); auto. { rewrite K3; auto. rewrite X2. discriminate. } cbn [bind].
  assert (SR : ~ In s (all_blocks r)) by (intros I; apply NS; right; apply in_or_app; auto).
  destruct (IH h4 s r sz la) as (h5 & -> & N5 & O5 & T1 & T2 & T3); auto.
  { rewrite F2; auto. } { apply (chain_frame h3); auto. intros q I. apply F2. intros ->. auto. } { constructor; auto. inversion ND'. inversion H2. auto. } { cbn [weights fold_right] in W. fold (weights r) in W. destruct x; cbn [weight] in W; lia. }
  exists h5. split; [reflexivity|]. split; [congruence|]. split; [congruence|]. split; auto. split.
  - intros q [<-|I]. + rewrite T3; auto. + destruct (in_dec Nat.eq_dec q (all_blocks r)) as [J|J]; auto. apply in_app_or in I. destruct I as [I|I]; [|contradiction].
      assert (q <> s) by (intros ->; auto). assert (q <> nptr x) by (intros ->; auto). rewrite T3, F2, K3; auto.
  - intros q Q1 Q2. assert (q <> nptr x /\ ~ In q (owned x) /\ ~ In q (all_blocks r)) as (I1 & I2 & I3). { repeat split. intros ->. apply Q2. left. auto. intros J. apply Q2. right. apply in_or_app. auto. intros J. apply Q2. right. apply in_or_app. auto. }
    rewrite T3, F2, K3; auto.
Qed.
Lemma heap_ok_freed : forall h h', heap_ok h -> h_next h' = h_next h -> (forall q, h_blk h' q = h_blk h q \/ h_blk h' q = None) -> heap_ok h'.
Proof.
  intros h h' (A & B & C) N K. split; [lia|]. split. destruct (K null); congruence. intros q Q. destruct (K q) as [E|E]; auto. rewrite E. apply C. lia.
Qed.
Lemma cleanup_stores : forall n h s l, heap_ok h -> stores h s l -> (weights l < n)%nat ->
  exists h', cleanup n h s = Ret h' /\ heap_ok h' /\ stores h' s [] /\ h_ok h' = h_ok h /\ h_next h' = h_next h /\
    (forall q, In q (all_blocks l) -> h_blk h' q = None) /\ forall q, q <> s -> ~ In q (all_blocks l) -> h_blk h' q = h_blk h q.
Proof.
  intros n h s l HO (SN & SB & CH & ND) W. destruct (cleanup_spec n h s l _ _ SN SB CH ND W) as (h' & E & N & O & T1 & T2 & T3). exists h'. split; auto.
  split. { split. rewrite N. apply HO. split.
    - rewrite T3; auto. destruct HO as (_ & X & _); exact X. intros I. eapply chain_live in I; eauto. destruct I; auto.
    - intros q Q. rewrite N in Q. assert (h_blk h q = None) by (destruct HO as (_ & _ & X); auto). rewrite T3; auto. intros ->. congruence. intros I. eapply chain_live in I; eauto. destruct I; auto. }
  split. { split; auto. split; auto. split. exact I. constructor. intros []. constructor. } auto 8.
Qed.
Lemma delete_stores : forall n h s l, heap_ok h -> stores h s l -> (weights l < n)%nat -> exists h', delete n h s = Ret h' /\ heap_ok h' /\ freed h h' (s :: all_blocks l).
Proof.
  intros n h s l HO ST W. destruct (cleanup_stores n h s l HO ST W) as (h1 & E & HO1 & (SN & SB & _ & _) & O & N & T2 & T3). destruct ST as (_ & _ & CH & ND). unfold delete.
  destruct s as [|s0] eqn:ES0; [exfalso; apply SN; reflexivity|]. rewrite <- ES0 in *. clear ES0 s0. rewrite E. cbn [bind].
  destruct (free_ok h1 s) as (h2 & -> & N2 & O2 & F1 & F2); auto. { rewrite SB. discriminate. } exists h2. split; auto. inversion ND as [|? ? NS ND1]; subst. split.
  { eapply heap_ok_freed; eauto. intros q. destruct (Nat.eq_dec q s) as [->|NE]; auto. }
  split; [congruence|]. split; [congruence|]. split. - intros q [<-|I]; auto. rewrite F2; auto. intros ->; auto. - intros q I. rewrite F2, T3; auto. all: intros ?; apply I; subst; cbn; auto.
Qed.

(** appends *)
Lemma stores_frame : forall h h' s l, (forall q, In q (s :: all_blocks l) -> h_blk h' q = h_blk h q) -> stores h s l -> stores h' s l.
Proof.
  intros h h' s l F (A & B & C & D). split; auto. split. rewrite F; auto. left; auto. split; auto. apply (chain_frame h); auto. intros q I. apply F. right. auto.
Qed.
Lemma stores_old : forall h s l q, heap_ok h -> stores h s l -> In q (s :: all_blocks l) -> (q < h_next h)%nat /\ q <> null /\ h_blk h q <> None.
Proof.
  intros h s l q HO (A & B & C & D) [<-|I]. - assert (h_blk h s <> None) by (rewrite B; discriminate). split; auto. apply live_old; auto.
  - eapply chain_live in C; eauto. destruct C. split; auto. apply live_old; auto.
Qed.
Lemma nodup_new : forall s l x (n : nat), NoDup (s :: all_blocks l) -> (forall q, In q (s :: all_blocks l) -> (q < n)%nat) -> NoDup (blocks_of x) -> (forall q, In q (blocks_of x) -> (n <= q)%nat) ->
  NoDup (s :: all_blocks (l ++ [x])).
Proof.
  intros s l x n A B C D. rewrite all_blocks_app. cbn [all_blocks flat_map]. rewrite app_nil_r. change (NoDup ((s :: all_blocks l) ++ blocks_of x)). apply nodup_app. repeat split; auto. intros q I J. apply B in I. apply D in J. lia.
Qed.
Lemma repeat_cons : forall sz, 0 < sz -> repeat 0 (Z.to_nat sz) <> [] /\ Z.of_nat (length (repeat 0 (Z.to_nat sz))) = sz.
Proof. intros sz P. rewrite repeat_length. split; [|lia]. destruct (Z.to_nat sz) eqn:E; [lia|discriminate]. Qed.
(** the result of an append: nothing happened, or one parameter of the given shape was added at the end *)
Definition appended (h h' : heap) (s : ptr) (l : list node) (x : node) : Prop :=
  stores h' s (l ++ [x]) /\ (forall q, In q (blocks_of x) -> (h_next h <= q < h_next h')%nat) /\
  forall q, ~ In q (s :: all_blocks l) -> ~ In q (blocks_of x) -> h_blk h' q = h_blk h q.
Lemma append_by_buffer_spec : forall h s l e m sz, heap_ok h -> stores h s l -> entry_src h e m -> 0 < sz ->
  exists r h', append_by_buffer h s (Some e) sz = Ret (r, h') /\ heap_ok h' /\ h_ok h' = h_ok h /\ (h_next h <= h_next h')%nat /\
  ((r <> 0 /\ ~ no_oom h /\ forall q, h_blk h' q = h_blk h q) \/
   (r = 0 /\ exists x, shape_of x = SBuf m (repeat 0 (Z.to_nat sz)) /\ appended h h' s l x)).
Proof.
  intros h s l e m sz HO ST ES P. assert (OLD := fun q => stores_old h s l q HO ST). assert (SN : s <> null) by apply ST. unfold append_by_buffer.
  destruct s as [|s0] eqn:ES0; [exfalso; apply SN; reflexivity|]. rewrite <- ES0 in *. clear ES0 s0. destruct (Z.leb_spec sz 0); [lia|].
  destruct (alloc h _) as (a, h1) eqn:A1. destruct (alloc_spec _ _ _ _ HO A1) as (HO1 & OK1 & N1 & [(-> & OF & B1)|(AN & AE & BA & B1)]).
  { exists (- ENOMEM), h1. split; [reflexivity|]. repeat (split; [solve [auto|lia]|]). left. split; [discriminate|]. split; auto. intros X. rewrite X in OF; [discriminate|lia]. }
  destruct a as [|a0] eqn:EA; [exfalso; apply AN; reflexivity|]. rewrite <- EA in *. clear EA a0.
  assert (ST1 : stores h1 s l). { apply (stores_frame h); auto. intros q I. apply B1. apply OLD in I. lia. }
  assert (ES1 : entry_src h1 e m). { destruct e as [r|q], m as [r'|x]; cbn in *; auto. rewrite B1; auto. intros ->. assert (a < h_next h)%nat; [|lia]. apply live_old; auto. rewrite ES. discriminate. }
  destruct (append_spec h1 s l sz e m a HO1 ST1 ES1) as (p & h2 & -> & HO2 & OK2 & N2 & CASES). cbn [bind].
  destruct CASES as [(-> & NO & B2)|(PN & pe & EM & EH & NDp & NEW & B2 & LINK)].
  - unfold null at 1. destruct (free_ok h2 a) as (h3 & -> & N3 & OK3 & F1 & F2); auto. { rewrite B2, BA. discriminate. } cbn [bind].
    exists (- EFAULT), h3. split; [reflexivity|]. assert (SAME : forall q, h_blk h3 q = h_blk h q). { intros q. destruct (Nat.eq_dec q a) as [->|NE]. rewrite F1. symmetry. destruct HO as (_ & _ & X). apply X. lia. rewrite F2, B2, B1; auto. }
    split. { eapply heap_ok_freed; eauto. intros q. destruct (Nat.eq_dec q a) as [->|NE]; auto. } split; [congruence|]. split; [lia|]. left. split; [discriminate|]. split; auto. intros X. apply NO. intros k K. rewrite OK1. apply X. lia.
  - destruct p as [|p0] eqn:EP; [exfalso; apply PN; reflexivity|]. rewrite <- EP in *. clear EP p0. exists 0, h2. split; [reflexivity|]. split; auto. split; [congruence|]. split; [lia|]. right. split; auto.
    destruct (repeat_cons sz P) as (RN & RL). set (x := NBuf p pe a (repeat 0 (Z.to_nat sz))). exists x. split. { cbn. rewrite EM. reflexivity. }
    assert (AB : h_blk h2 a = Some (BBytes (repeat 0 (Z.to_nat sz)))).
    { rewrite B2; auto. - intros ->. assert (s < h_next h)%nat; [|lia]. apply OLD. left. auto.
      - intros I. assert (a < h_next h)%nat; [|lia]. apply OLD. right. apply in_map_iff in I. destruct I as (y & <- & I). apply in_flat_map. exists y. split; auto. left. auto.
      - intros I. apply NEW in I. lia. }
    destruct (LINK x) as (CH & HB). { repeat split; auto. } { cbn. auto. }
    assert (NB : NoDup (blocks_of x)). { cbn [blocks_of nptr owned x]. change (NoDup ((p :: entry_block pe) ++ [a])). apply nodup_app. split; auto. split. repeat constructor. intros []. intros q I [<-|[]]. apply NEW in I. lia. }
    assert (RG : forall q, In q (blocks_of x) -> (h_next h <= q < h_next h2)%nat). { intros q I. cbn in I. change (In q ((p :: entry_block pe) ++ [a])) in I. apply in_app_or in I. destruct I as [I|[<-|[]]]; [apply NEW in I|]; lia. }
    split. { split; auto. split; auto. split; auto. apply (nodup_new s l x (h_next h)). apply ST. intros q I. apply OLD. auto. auto. intros q I. apply RG. auto. }
    split; auto. intros q Q1 Q2. rewrite B2, B1; auto.
    + intros ->. apply Q2. cbn. right. apply in_or_app. right. left. auto. + intros ->. apply Q1. left. auto.
    + intros I. apply Q1. right. apply in_map_iff in I. destruct I as (y & <- & I). apply in_flat_map. exists y. split; auto. left. auto.
    + intros I. apply Q2. change (In q ((p :: entry_block pe) ++ [a])). apply in_or_app. auto.
Qed.
Lemma append_by_storage_spec : forall va n h s l r, heap_ok h -> stores h s l -> va r = true -> (0 < n)%nat ->
  exists z h', append_by_storage va n h s (Some (EStatic r)) = Ret (z, h') /\ heap_ok h' /\ h_ok h' = h_ok h /\ (h_next h <= h_next h')%nat /\
  ((z <> 0 /\ ~ no_oom h /\ forall q, h_blk h' q = h_blk h q) \/
   (z = 0 /\ exists x, (shape_of x = SStor (inl r) [] \/ (shape_of x = SNull (inl r) /\ ~ no_oom h)) /\ appended h h' s l x)).
Proof.
  intros va n h s l r HO ST V NZ. assert (OLD := fun q => stores_old h s l q HO ST). unfold append_by_storage. rewrite V. cbn [negb]. unfold new_storage.
  destruct (alloc h _) as (i, h1) eqn:A1. destruct (alloc_spec _ _ _ _ HO A1) as (HO1 & OK1 & N1 & CI).
  assert (B1 : forall q, (q < h_next h)%nat -> h_blk h1 q = h_blk h q). { intros q Q. destruct CI as [(_ & _ & B1)|(_ & -> & _ & B1)]; apply B1; lia. }
  assert (ST1 : stores h1 s l). { apply (stores_frame h); auto. intros q I. apply B1. apply OLD. auto. }
  destruct (append_spec h1 s l 0 (EStatic r) (inl r) i HO1 ST1 eq_refl) as (p & h2 & -> & HO2 & OK2 & N2 & CASES). cbn [bind].
  destruct CASES as [(-> & NO & B2)|(PN & pe & EM & EH & NDp & NEW & B2 & LINK)].
  - unfold null at 1. assert (NO' : ~ no_oom h) by (intros X; apply NO; intros k K; rewrite OK1; apply X; lia).
    destruct CI as [(-> & _ & CI)|(IN & IE & BI & CI)].
    + cbn [delete null bind]. exists (- EFAULT), h2. split; [reflexivity|]. split; auto. split; [congruence|]. split; [lia|]. left. split; [discriminate|]. split; auto. intros q. rewrite B2. auto.
    + destruct (delete_stores n h2 i []) as (h3 & -> & HO3 & (O3 & N3 & F1 & F2)); auto. { split; auto. split. rewrite B2. exact BI. split. exact I. constructor. intros []. constructor. } cbn [bind].
      exists (- EFAULT), h3. split; [reflexivity|]. split; auto. split; [congruence|]. split; [lia|]. left. split; [discriminate|]. split; auto. intros q. destruct (Nat.eq_dec q i) as [->|NE].
      * rewrite F1 by (left; auto). symmetry. destruct HO as (_ & _ & X). apply X. lia. * rewrite F2, B2; auto. intros [E|[]]; congruence.
  - destruct p as [|p0] eqn:EP; [exfalso; apply PN; reflexivity|]. rewrite <- EP in *. clear EP p0. exists 0, h2. split; [reflexivity|]. split; auto. split; [congruence|]. split; [lia|]. right. split; auto.
    destruct pe as [r'|q' x']; [|discriminate]. cbn in EM. assert (r' = r) by congruence. subst r'. cbn [entry_block] in *.
    assert (NL : forall q, In q (map nptr l) -> In q (all_blocks l)). { intros q I. apply in_map_iff in I. destruct I as (y & <- & I). apply in_flat_map. exists y. split; auto. left. auto. }
    assert (PR : (h_next h1 <= p < h_next h2)%nat) by (apply NEW; left; auto).
    destruct CI as [(-> & OF & CI)|(IN & IE & BI & CI)].
    + exists (NNull p (PStatic r)). split. { right. split; auto. intros X. rewrite X in OF; [discriminate|lia]. }
      destruct (LINK (NNull p (PStatic r))) as (CH & HB). { repeat split; auto. } { exact I. }
      assert (RG : forall q, In q (blocks_of (NNull p (PStatic r))) -> (h_next h <= q < h_next h2)%nat). { intros q [<-|[]]. cbn [nptr]. lia. }
      split. { split. apply ST. split; auto. split; auto. apply (nodup_new s l _ (h_next h)). apply ST. intros q I. apply OLD. auto. repeat constructor. intros []. intros q I. apply RG. auto. }
      split; auto. intros q Q1 Q2. rewrite B2, CI; auto. intros ->. apply Q1. left. auto. intros J. apply Q1. right. auto.
    + exists (NStor p (PStatic r) i []). split. { left. reflexivity. }
      assert (IB : h_blk h2 i = Some (header [])).
      { rewrite B2; auto. - intros ->. assert (s < h_next h)%nat; [|lia]. apply OLD. left. auto.
        - intros J. assert (i < h_next h)%nat; [|lia]. apply OLD. right. auto. - intros [<-|[]]. lia. }
      destruct (LINK (NStor p (PStatic r) i [])) as (CH & HB). { repeat split; auto. } { apply contents_stor. repeat split; auto. }
      assert (RG : forall q, In q (blocks_of (NStor p (PStatic r) i [])) -> (h_next h <= q < h_next h2)%nat). { intros q [<-|[<-|[]]]; cbn [nptr]; lia. }
      split. { split. apply ST. split; auto. split; auto. apply (nodup_new s l _ (h_next h)). apply ST. intros q J. apply OLD. auto. repeat constructor. intros [E|[]]. cbn in E. lia. intros []. intros q J. apply RG. auto. }
      split; auto. intros q Q1 Q2. assert (q <> i). { intros ->. apply Q2. right. left. auto. } rewrite B2, CI; auto. intros ->. apply Q1. left. auto. intros J. apply Q1. right. auto. intros [E|[]]. apply Q2. left. auto.
Qed.
(** reading *)
Lemma param_from_spec : forall h l n pv id cur, chain h l pv null -> (length l < n)%nat ->
  param_from n h (first_of l null) id cur = Ret (match (if id <? cur then None else nth_error l (Z.to_nat (id - cur))) with
     | Some x => match naddr x with O => None | a => Some (raw_entry (nentry x), a) end | None => None end).
Proof.
  intros h. induction l as [|x l IH]; intros n pv id cur C L; destruct n as [|n]; try (cbn in L; lia); cbn [param_from first_of].
  - unfold null at 1. destruct (id <? cur); [|destruct (Z.to_nat (id - cur))]; reflexivity.
  - cbn [chain] in C. destruct C as (XN & XB & XC & C). destruct (nptr x) as [|x1] eqn:EX; [exfalso; apply XN; reflexivity|]. rewrite <- EX in *. clear EX x1.
    rewrite (get_param_ok _ _ _ XB). cbn [bind param_of p_addr p_entry p_next]. destruct (Z.eqb_spec id cur) as [->|NE].
    + rewrite Z.ltb_irrefl, Z.sub_diag. reflexivity.
    + cbn in L. rewrite (IH n _ id (cur + 1) C) by lia. destruct (Z.ltb_spec id cur), (Z.ltb_spec id (cur + 1)); try lia; auto. replace (Z.to_nat (id - cur)) with (S (Z.to_nat (id - (cur + 1)))) by lia. reflexivity.
Qed.

(** storages change: [l] becomes [l'], new blocks come from fresh allocations, dropped ones are freed, nothing else moves *)
Definition evolves (h h' : heap) (s : ptr) (l l' : list node) : Prop :=
  heap_ok h' /\ stores h' s l' /\ (forall q, In q (all_blocks l') -> In q (all_blocks l) \/ (h_next h <= q)%nat) /\
  (forall q, ~ In q (s :: all_blocks l) -> ~ In q (all_blocks l') -> h_blk h' q = h_blk h q) /\
  (forall q, In q (all_blocks l) -> ~ In q (all_blocks l') -> h_blk h' q = None).
Lemma evolves_refl : forall h h' s l, heap_ok h' -> stores h s l -> (forall q, h_blk h' q = h_blk h q) -> evolves h h' s l l.
Proof. intros h h' s l HO ST E. split; auto. split. apply (stores_frame h); auto. split; auto. split; auto. intros q I J. contradiction. Qed.
Lemma appended_evolves : forall h h' s l x, heap_ok h' -> appended h h' s l x -> evolves h h' s l (l ++ [x]).
Proof.
  intros h h' s l x HO (ST & RG & FR). split; auto. split; auto. rewrite all_blocks_app. cbn [all_blocks flat_map]. rewrite app_nil_r. fold (all_blocks l). split; [|split].
  - intros q I. apply in_app_or in I. destruct I as [I|I]; auto. right. apply RG. auto.
  - intros q I J. apply FR; auto. intros K. apply J. apply in_or_app. auto.
  - intros q I J. exfalso. apply J. apply in_or_app. auto.
Qed.
Lemma evolves_trans : forall h h1 h2 s l l1 l2, stores h s l -> heap_ok h -> (h_next h <= h_next h1)%nat -> evolves h h1 s l l1 -> evolves h1 h2 s l1 l2 -> evolves h h2 s l l2.
Proof.
  intros h h1 h2 s l l1 l2 ST HO NX (HO1 & ST1 & A1 & B1 & C1) (HO2 & ST2 & A2 & B2 & C2). split; auto. split; auto.
  assert (OLD := fun q => stores_old h s l q HO ST). assert (OLD1 := fun q => stores_old h1 s l1 q HO1 ST1).
  split; [|split].
  - intros q I. apply A2 in I. destruct I as [I|I]; auto. right. lia.
  - intros q I J. destruct (in_dec Nat.eq_dec q (all_blocks l1)) as [K|K].
    + rewrite C2; auto. symmetry. destruct (A1 _ K) as [L|L]. exfalso. apply I. right. auto. destruct HO as (_ & _ & X). apply X. auto.
    + rewrite B2; auto. intros [<-|L]; auto. apply I. left. auto.
  - intros q I J. destruct (in_dec Nat.eq_dec q (all_blocks l1)) as [K|K]; auto. rewrite B2; auto. intros [<-|L]; auto. destruct ST as (_ & _ & _ & ND). inversion ND. contradiction.
Qed.

Lemma chain_replace : forall h h' x x' l2 l1 pv nx, param_of x = param_of x' -> nptr x = nptr x' ->
  chain h (l1 ++ x :: l2) pv nx -> contents h' x' -> (forall q, In q (all_blocks l1 ++ nptr x :: all_blocks l2) -> h_blk h' q = h_blk h q) -> chain h' (l1 ++ x' :: l2) pv nx.
Proof.
  intros h h' x x' l2. induction l1 as [|y l1 IH]; intros pv nx EP EN C CX F; cbn [app chain] in *.
  - destruct C as (A & B & _ & D). rewrite <- EN. split; auto. split. rewrite F by (left; auto). rewrite <- EP. auto. split; auto. apply (chain_frame h); auto. intros q I. apply F. right. auto.
  - destruct C as (A & B & C & D). split; auto. split. { rewrite F. rewrite B. destruct l1; cbn [app first_of]; congruence. apply in_or_app. left. left. auto. }
    split. { apply (contents_frame h); auto. intros q I. apply F. apply in_or_app. left. right. apply in_or_app. left. auto. }
    apply IH; auto. intros q I. apply F. apply in_app_or in I. apply in_or_app. destruct I as [I|I]; auto. left. right. apply in_or_app. right. auto.
Qed.
Lemma header_replace : forall x x' l2 l1, nptr x = nptr x' -> header (l1 ++ x :: l2) = header (l1 ++ x' :: l2).
Proof.
  intros x x' l2 l1 E. unfold header, last_of. rewrite !map_app, !app_length. cbn [map length]. rewrite E. destruct l1; cbn [app first_of]; congruence.
Qed.
Lemma blocks_stor : forall p e s l, blocks_of (NStor p e s l) = p :: entry_block e ++ s :: all_blocks l.
Proof. reflexivity. Qed.
Lemma nested_stores : forall h s l1 p e t li l2, stores h s (l1 ++ NStor p e t li :: l2) -> stores h t li.
Proof.
  intros h s l1 p e t li l2 (SN & SB & CH & ND). apply chain_app in CH. destruct CH as (_ & CH). cbn [chain] in CH. destruct CH as (_ & _ & C & _). apply contents_stor in C. destruct C as (_ & A & B & C). split; auto. split; auto. split; auto.
  rewrite all_blocks_app, all_blocks_cons, blocks_stor in ND. inversion ND as [|? ? _ ND1]; subst. apply nodup_app in ND1. destruct ND1 as (_ & ND1 & _). inversion ND1 as [|? ? _ ND2]; subst. apply nodup_app in ND2. destruct ND2 as (ND2 & _ & _). apply nodup_app in ND2. apply ND2.
Qed.
Lemma nested_evolves : forall h h' s l1 p e t li l2 li', heap_ok h -> stores h s (l1 ++ NStor p e t li :: l2) -> evolves h h' t li li' ->
  evolves h h' s (l1 ++ NStor p e t li :: l2) (l1 ++ NStor p e t li' :: l2).
Proof.
  intros h h' s l1 p e t li l2 li' HO ST (HO' & ST' & A & B & C). assert (OLD := fun q => stores_old _ _ _ q HO ST). assert (STt := nested_stores _ _ _ _ _ _ _ _ ST). destruct ST as (SN & SB & CH & ND).
  set (U := all_blocks l1 ++ p :: entry_block e). set (V := all_blocks l2).
  assert (EB : forall z, all_blocks (l1 ++ NStor p e t z :: l2) = U ++ (t :: all_blocks z) ++ V). { intros z. unfold U, V. rewrite all_blocks_app, all_blocks_cons, blocks_stor. repeat (cbn [app]; rewrite <- ?app_assoc). reflexivity. }
  rewrite EB in *. change (NoDup ((s :: U) ++ (t :: all_blocks li) ++ V)) in ND. apply nodup_app in ND. destruct ND as (N1 & N2 & N3). apply nodup_app in N2. destruct N2 as (N4 & N5 & N6).
  assert (FR : forall q, In q (s :: U) \/ In q V -> h_blk h' q = h_blk h q).
  { intros q I. assert (NI : ~ In q (t :: all_blocks li)). { intros J. destruct I as [I|I]. apply (N3 q I). apply in_or_app. auto. apply (N6 q J I). } apply B; auto. intros J. apply A in J. destruct J as [J|J]. apply NI. right. auto.
    assert (q < h_next h)%nat; [|lia]. apply OLD. destruct I as [[<-|I]|I]. left; auto. right. apply in_or_app. auto. right. apply in_or_app. right. apply in_or_app. auto. }
  destruct ST' as (TN & TB & TC & TD). split; auto. split; [|split; [|split]].
  - split; auto. split. { rewrite FR, SB by (left; left; auto). f_equal. apply header_replace. reflexivity. }
    split. { apply (chain_replace h h' (NStor p e t li)); auto.
      - apply contents_stor. split. + apply chain_app in CH. destruct CH as (_ & CH). cbn [chain] in CH. destruct CH as (_ & _ & CC & _). apply contents_stor in CC. destruct CC as (CC & _). apply (entry_frame h); auto. intros q I. apply FR. left. right. apply in_or_app. right. right. auto. + auto.
      - cbn [nptr]. intros q I. apply FR. apply in_app_or in I. destruct I as [I|[<-|I]]; auto. left. right. apply in_or_app. auto. left. right. apply in_or_app. right. left. auto. }
    rewrite EB. change (NoDup ((s :: U) ++ (t :: all_blocks li') ++ V)).
    assert (FRESH : forall q, In q (t :: all_blocks li') -> In q (t :: all_blocks li) \/ (h_next h <= q)%nat). { intros q [<-|I]. left. left. auto. apply A in I. destruct I; auto. left. right. auto. }
    apply nodup_app. split; auto. split. apply nodup_app. split; auto. split; auto.
    + intros q I J. apply FRESH in I. destruct I as [I|I]. apply (N6 q I J). assert (q < h_next h)%nat; [|lia]. apply OLD. right. apply in_or_app. right. apply in_or_app. auto.
    + intros q I J. apply in_app_or in J. destruct J as [J|J]; [|apply (N3 q I); apply in_or_app; auto]. apply FRESH in J. destruct J as [J|J]. apply (N3 q I). apply in_or_app. auto. assert (q < h_next h)%nat; [|lia]. apply OLD. destruct I as [I|I]. left; auto. right. apply in_or_app. auto.
  - intros q I. rewrite EB in I. rewrite EB. apply in_app_or in I. destruct I as [I|I]. left. apply in_or_app. auto. apply in_app_or in I. destruct I as [[<-|I]|I].
    left. apply in_or_app. right. left. auto. apply A in I. destruct I as [I|I]; auto. left. apply in_or_app. right. right. apply in_or_app. auto. left. apply in_or_app. right. apply in_or_app. auto.
  - intros q I J. rewrite EB in *. apply B. intros K. apply I. right. apply in_or_app. right. apply in_or_app. auto. intros K. apply J. apply in_or_app. right. right. apply in_or_app. auto.
  - intros q I J. rewrite EB in *. apply C. + apply in_app_or in I. destruct I as [I|I]. exfalso. apply J. apply in_or_app. auto. apply in_app_or in I. destruct I as [[<-|I]|I]; auto; exfalso; apply J; apply in_or_app; right; [left; auto|apply in_or_app; auto].
    + intros K. apply J. apply in_or_app. right. right. apply in_or_app. auto.
Qed.

(** copying *)
Lemma last_node : forall h s l x, stores h s (l ++ [x]) -> get_storage h s = Ret (Build_storage (first_of (l ++ [x]) null) (Z.of_nat (length (l ++ [x]))) (nptr x)) /\
  exists pv, get_param h (nptr x) = Ret (param_of x null pv).
Proof.
  intros h s l x (SN & SB & CH & ND). split. - unfold get_storage. rewrite SB. unfold header. rewrite last_of_app. reflexivity. - apply chain_app in CH. destruct CH as (_ & CH). cbn [chain] in CH. destruct CH as (_ & B & _). eexists. apply get_param_ok. exact B.
Qed.
Lemma holds_src : forall h e, entry_holds h e -> entry_src h (raw_entry e) (entry_of e).
Proof. intros h [r|q x] E; cbn in *; auto. apply E. Qed.
Lemma no_oom_later : forall h h', h_ok h' = h_ok h -> (h_next h <= h_next h')%nat -> no_oom h -> no_oom h'.
Proof. intros h h' O N X k K. rewrite O. apply X. lia. Qed.
Lemma whole_stor : forall va p e s l, whole va (NStor p e s l) <-> (exists r, e = PStatic r /\ va r = true) /\ Forall (whole va) l.
Proof.
  intros va p e s l. cbn [whole]. assert (X : forall l, (fix all (l : list node) : Prop := match l with [] => True | x :: r => whole va x /\ all r end) l <-> Forall (whole va) l).
  { clear. induction l as [|x l IH]; split; intros H; auto. destruct H. constructor; tauto. inversion H; subst. tauto. } rewrite X. tauto.
Qed.
Lemma copy_spec : forall va n h ls pv dst ld, heap_ok h -> chain h ls pv null -> stores h dst ld -> Forall (whole va) ls ->
  (forall q, In q (all_blocks ls) -> ~ In q (dst :: all_blocks ld)) -> (weights ls < n)%nat ->
  (copy_from va n h (first_of ls null) dst = Abort /\ ~ no_oom h) \/
  exists r h' ln, copy_from va n h (first_of ls null) dst = Ret (r, h') /\ h_ok h' = h_ok h /\ (h_next h <= h_next h')%nat /\
    evolves h h' dst ld (ld ++ ln) /\ (r = 0 -> map shape_of ln = map shape_of ls) /\ (r <> 0 -> ~ no_oom h).
Proof.
  intros va. induction n as [|k IH]; intros h ls pv dst ld HO CH ST WH DJ W; [lia|]. cbn [copy_from]. destruct ls as [|x ls]; cbn [first_of].
  { unfold null at 1. right. exists 0, h, []. split; auto. split; auto. split; auto. split. rewrite app_nil_r. apply evolves_refl; auto. split; auto. }
  cbn [chain] in CH. destruct CH as (XN & XB & XC & CH). inversion WH as [|? ? WX WH']; subst. destruct (nptr x) as [|x1] eqn:EX; [exfalso; apply XN; reflexivity|]. rewrite <- EX in *. clear EX x1.
  rewrite (get_param_ok _ _ _ XB). cbn [bind param_of p_size p_entry p_addr p_next].
  assert (SRC : forall h', (forall q, In q (all_blocks (x :: ls)) -> h_blk h' q = h_blk h q) -> h_blk h' (nptr x) = h_blk h (nptr x) /\ contents h' x /\ chain h' ls (PNext (nptr x)) null).
  { intros h' F. split; [|split]. - apply F. left. auto. - apply (contents_frame h); auto. intros q I. apply F. rewrite all_blocks_cons. apply in_or_app. left. right. auto. - apply (chain_frame h); auto. intros q I. apply F. rewrite all_blocks_cons. apply in_or_app. auto. }
  assert (SOLD : forall q, In q (all_blocks (x :: ls)) -> (q < h_next h)%nat). { intros q I. apply live_old; auto. apply (chain_live h (x :: ls) pv null). cbn [chain]. auto. auto. }
  assert (W' : (weights ls < k)%nat). { cbn [weights fold_right] in W. fold (weights ls) in W. destruct x; cbn [weight] in W; lia. }
  (* the rest, once the first parameter was copied as x' *)
  assert (NEXT : forall h2 x', h_ok h2 = h_ok h -> (h_next h <= h_next h2)%nat -> evolves h h2 dst ld (ld ++ [x']) -> shape_of x' = shape_of x ->
     (exists y, get_param h2 (nptr x) = Ret y /\ p_next y = first_of ls null) /\
     ((copy_from va k h2 (first_of ls null) dst = Abort /\ ~ no_oom h) \/
      exists r h' ln, copy_from va k h2 (first_of ls null) dst = Ret (r, h') /\ h_ok h' = h_ok h /\ (h_next h <= h_next h')%nat /\
        evolves h h' dst ld (ld ++ ln) /\ (r = 0 -> map shape_of ln = map shape_of (x :: ls)) /\ (r <> 0 -> ~ no_oom h))).
  { intros h2 x' O2 N2 EV SH. assert (EV' := EV). destruct EV as (HO2 & ST2 & A & B & C). assert (F : forall q, In q (all_blocks (x :: ls)) -> h_blk h2 q = h_blk h q).
    { intros q I. assert (NI := DJ q I). apply B; auto. intros J. apply A in J. destruct J as [J|J]. apply NI. right. auto. apply SOLD in I. lia. }
    destruct (SRC h2 F) as (SX & _ & SL). split. { rewrite XB in SX. exists (param_of x (first_of ls null) pv). split. apply get_param_ok. auto. reflexivity. }
    assert (D : forall q, In q (all_blocks ls) -> ~ In q (dst :: all_blocks (ld ++ [x']))).
    { intros q I J. assert (I' : In q (all_blocks (x :: ls))) by (rewrite all_blocks_cons; apply in_or_app; auto). assert (NI := DJ q I'). destruct J as [<-|J]. apply NI. left. auto. apply A in J. destruct J as [J|J]. apply NI. right. auto. apply SOLD in I'. lia. }
    destruct (IH h2 ls _ dst (ld ++ [x']) HO2 SL ST2 WH' D W') as [(E & NO)|(r & h' & ln & E & O & N & EV2 & R0 & R1)].
    - left. split; auto. intros X. apply NO. eapply no_oom_later; eauto.
    - right. exists r, h', (x' :: ln). split; auto. split; [congruence|]. split; [lia|]. split. { rewrite <- app_assoc in EV2. cbn [app] in EV2. eapply evolves_trans; eauto. }
      split. intros R. cbn [map]. rewrite SH. f_equal. auto. intros R X. apply R1; auto. eapply no_oom_later; eauto. }
  destruct x as [p e a b|p e s' l'|p e].
  - destruct XC as (EH & AN & BN & AB). cbn [nsize]. assert (LB : 0 < Z.of_nat (length b)) by (destruct b; [congruence|cbn; lia]). destruct (Z.eqb_spec (Z.of_nat (length b)) 0); [lia|]. cbn [negb].
    destruct (append_by_buffer_spec h dst ld (raw_entry (nentry (NBuf p e a b))) (entry_of e) _ HO ST (holds_src h e EH) LB) as (r & h1 & -> & HO1 & O1 & N1 & CS). cbn [bind].
    destruct CS as [(R & NO & BS)|(-> & x' & SH & AP)].
    + destruct (Z.eqb_spec r 0); [contradiction|]. cbn [negb]. right. exists (- EFAULT), h1, []. split; auto. split; auto. split; auto. split. rewrite app_nil_r. apply evolves_refl; auto. split; [discriminate|]. auto.
    + cbn [Z.eqb negb]. destruct AP as (ST1 & RG & FR). destruct (last_node _ _ _ _ ST1) as (G1 & pv' & G2). rewrite G1. cbn [bind s_last]. rewrite G2. cbn [bind param_of p_addr p_size].
      destruct x' as [p' e' a' b'|? ? ? ?|? ?]; try discriminate. cbn [shape_of] in SH. injection SH as SE SB'.
      assert (C1 : contents h1 (NBuf p' e' a' b')). { destruct ST1 as (_ & _ & C & _). apply chain_app in C. destruct C as (_ & C). cbn [chain] in C. apply C. }
      destruct C1 as (EH' & AN' & BN' & AB'). cbn [naddr nsize]. destruct (Nat.eqb_spec a' null); [contradiction|]. rewrite SB', repeat_length, Nat2Z.id, Z.eqb_refl. cbn [negb andb].
      assert (F1 : forall q, In q (all_blocks (NBuf p e a b :: ls)) -> h_blk h1 q = h_blk h q). { intros q I. apply FR. auto. intros J. apply RG in J. apply SOLD in I. lia. }
      assert (AI : In a (all_blocks (NBuf p e a b :: ls))). { rewrite all_blocks_cons. apply in_or_app. left. right. cbn. apply in_or_app. right. left. auto. }
      assert (GA : get_bytes h1 a = Ret b) by (unfold get_bytes; rewrite F1, AB by auto; reflexivity). rewrite GA. cbn [bind]. assert (GA' : get_bytes h1 a' = Ret b') by (unfold get_bytes; rewrite AB'; reflexivity). rewrite GA'. cbn [bind]. rewrite SB', repeat_length, Nat2Z.id. destruct (Z.ltb_spec (Z.of_nat (length b)) (Z.of_nat (length b))); [lia|]. cbn [orb].
      rewrite firstn_all, skipn_all2, app_nil_r by (rewrite repeat_length; lia).
      set (h2 := write h1 a' (BBytes b)). set (x2 := NBuf p' e' a' b).
      assert (NDx : NoDup (dst :: all_blocks (ld ++ [NBuf p' e' a' b']))) by apply ST1.
      assert (AR : (h_next h <= a' < h_next h1)%nat). { apply RG. right. cbn. apply in_or_app. right. left. auto. }
      assert (AF : forall q, q <> a' -> h_blk h2 q = h_blk h1 q). { intros q Q. unfold h2. apply write_other; auto. }
      assert (AX : ~ In a' (dst :: all_blocks ld ++ p' :: entry_block e')).
      { intros J. rewrite all_blocks_app in NDx. cbn [all_blocks flat_map] in NDx. rewrite app_nil_r in NDx. change (NoDup ((dst :: all_blocks ld) ++ (p' :: entry_block e' ++ [a']))) in NDx. change (p' :: entry_block e' ++ [a']) with ((p' :: entry_block e') ++ [a']) in NDx. rewrite app_assoc in NDx. apply nodup_app in NDx. destruct NDx as (_ & _ & NDx). apply (NDx a'); [exact J|left; auto]. }
      assert (HO2 : heap_ok h2). { destruct HO1 as (X1 & X2 & X3). split; auto. split. rewrite AF; auto. intros q Q. rewrite AF. apply X3. exact Q. intros ->. cbn in Q. lia. }
      assert (ST2 : stores h2 dst (ld ++ [x2])).
      { destruct ST1 as (Y1 & Y2 & Y3 & Y4). split; auto. split. { rewrite AF. rewrite Y2. f_equal. apply header_replace. reflexivity. intros ->. apply AX. left. auto. } split; [|rewrite all_blocks_app in Y4 |- *; exact Y4].
        apply (chain_replace h1 h2 (NBuf p' e' a' b')); auto. { unfold param_of. cbn [nsize nentry naddr x2]. rewrite SB', repeat_length, Nat2Z.id. reflexivity. }
        - split. { apply (entry_frame h1); auto. intros q I. apply AF. intros ->. apply AX. right. apply in_or_app. right. right. auto. } split; auto. split; auto. apply write_same.
        - intros q I. apply AF. intros ->. apply AX. right. cbn [nptr] in I. apply in_app_or in I. apply in_or_app. destruct I as [I|[I|I]]; auto. right. left. auto. destruct I. }
      assert (EV : evolves h h2 dst ld (ld ++ [x2])).
      { split; auto. split; auto. rewrite all_blocks_app. cbn [all_blocks flat_map]. rewrite app_nil_r. fold (all_blocks ld). split; [|split].
        - intros q I. apply in_app_or in I. destruct I as [I|I]; auto. right. apply RG. exact I.
        - intros q I J. rewrite AF. apply FR; auto. intros K. apply J. apply in_or_app. right. exact K. intros ->. apply J. apply in_or_app. right. right. cbn. apply in_or_app. right. left. auto.
        - intros q I J. exfalso. apply J. apply in_or_app. auto. }
      destruct (NEXT h2 x2 O1 N1 EV) as ((y & GY & NY) & RES). { cbn. rewrite SE. reflexivity. } cbn [nptr] in GY. cbn [nptr]. rewrite GY. cbn [bind]. rewrite NY. exact RES.
  - apply whole_stor in WX. destruct WX as ((r & -> & V) & WI). apply contents_stor in XC. destruct XC as (_ & SN' & SB' & SC'). cbn [nsize Z.eqb negb nentry raw_entry].
    assert (K0 : (0 < k)%nat) by lia. destruct (append_by_storage_spec va k h dst ld r HO ST V K0) as (z & h1 & -> & HO1 & O1 & N1 & CS). cbn [bind].
    destruct CS as [(R & NO & BS)|(-> & x' & SH & AP)].
    + destruct (Z.eqb_spec z 0); [contradiction|]. cbn [negb]. right. exists (- EFAULT), h1, []. split; auto. split; auto. split; auto. split. rewrite app_nil_r. apply evolves_refl; auto. split; [discriminate|]. auto.
    + cbn [Z.eqb negb]. assert (EV0 := appended_evolves _ _ _ _ _ HO1 AP). destruct AP as (ST1 & RG & FR). destruct (last_node _ _ _ _ ST1) as (G1 & pv' & G2). rewrite G1. cbn [bind s_last]. rewrite G2. cbn [bind param_of p_addr p_size].
      assert (C1 : contents h1 x'). { destruct ST1 as (_ & _ & C & _). apply chain_app in C. destruct C as (_ & C). cbn [chain] in C. apply C. }
      destruct SH as [SH|(SH & NO)]; destruct x' as [? ? ? ?|p' e' i li|p' e']; try discriminate.
      2:{ cbn [naddr null Nat.eqb negb andb]. left. auto. }
      cbn [shape_of] in SH. injection SH as SE SL. destruct li; [|discriminate]. apply (proj1 (contents_stor _ _ _ _ _)) in C1. destruct C1 as (_ & IN & IB & _). cbn [naddr nsize]. destruct (Nat.eqb_spec i null); [contradiction|]. rewrite Z.eqb_refl. cbn [negb andb].
      assert (F1 : forall q, In q (all_blocks (NStor p (PStatic r) s' l' :: ls)) -> h_blk h1 q = h_blk h q). { intros q I. apply FR. auto. intros J. apply RG in J. apply SOLD in I. lia. }
      assert (SUB : forall q, In q (s' :: all_blocks l') -> In q (all_blocks (NStor p (PStatic r) s' l' :: ls))). { intros q I. rewrite all_blocks_cons, blocks_stor. apply in_or_app. left. right. exact I. }
      unfold get_storage. rewrite F1, SB' by (apply SUB; left; auto). unfold header. cbn [bind s_first].
      assert (STI := nested_stores h1 dst ld p' e' i [] [] ST1). assert (IR : (h_next h <= i < h_next h1)%nat). { apply RG. right. cbn. apply in_or_app. right. left. auto. }
      assert (CH1 : chain h1 l' (PHead s') null). { apply (chain_frame h); auto. intros q I. apply F1. apply SUB. right. auto. }
      assert (DI : forall q, In q (all_blocks l') -> ~ In q (i :: all_blocks [])). { intros q I [<-|J]; [|exact J]. assert (i < h_next h)%nat; [|lia]. apply SOLD. apply SUB. right. auto. }
      assert (WL : (weights l' < k)%nat). { cbn [weights fold_right weight] in W. unfold weights. lia. }
      destruct (IH h1 l' _ i [] HO1 CH1 STI WI DI WL) as [(-> & NO)|(r2 & h2 & li & -> & O2 & N2 & EV & R0 & R1)]; cbn [bind].
      { left. split; auto. intros X. apply NO. eapply no_oom_later; eauto. }
      cbn [app] in EV. assert (EV2 := nested_evolves _ _ _ _ _ _ _ _ _ _ HO1 ST1 EV). assert (EV3 := evolves_trans _ _ _ _ _ _ _ ST HO N1 EV0 EV2).
      destruct (Z.eqb_spec r2 0) as [->|R2].
      * cbn [negb]. destruct (NEXT h2 (NStor p' e' i li)) as ((y & GY & NY) & RES); auto; try congruence; try lia. { cbn [shape_of entry_of]. rewrite SE, R0 by auto. reflexivity. } cbn [nptr] in GY. cbn [nptr]. rewrite GY. cbn [bind]. rewrite NY. exact RES.
      * cbn [negb]. right. exists (- EFAULT), h2, [NStor p' e' i li]. split; auto. split; [congruence|]. split; [lia|]. split; auto. split; [discriminate|]. intros _ X. apply R1; auto. eapply no_oom_later; eauto.
  - cbn in WX. contradiction.
Qed.

(** bounds *)
Lemma weights_blocks : forall l, (weights l <= length (all_blocks l))%nat.
Proof.
  assert (X : forall x, (weight x <= length (blocks_of x))%nat).
  { apply (node_ind2 (fun x => (weight x <= length (blocks_of x))%nat)). - intros. cbn. rewrite app_length. cbn. lia.
    - intros p e s l F. rewrite blocks_stor. cbn [weight length]. rewrite app_length. cbn [length]. assert (fold_right (fun x k => (weight x + k)%nat) 0%nat l <= length (all_blocks l))%nat; [|lia].
      clear -F. induction F as [|x l A F IH]; [cbn; lia|]. rewrite all_blocks_cons, app_length. cbn [fold_right]. lia. - intros. cbn. lia. }
  induction l as [|x l IH]; [cbn; lia|]. rewrite all_blocks_cons, app_length. cbn [weights fold_right]. fold (weights l). specialize (X x). lia.
Qed.
Lemma length_blocks : forall l, (length l <= length (all_blocks l))%nat.
Proof. induction l as [|x l IH]; [cbn; lia|]. rewrite all_blocks_cons, app_length. cbn [length blocks_of]. lia. Qed.
Lemma nodup_bound : forall (l : list nat) n, NoDup l -> (forall q, In q l -> (0 < q < n)%nat) -> (0 < n)%nat -> (length l < n)%nat.
Proof.
  intros l n ND B P. assert (length l <= length (seq 1 (n - 1)))%nat. { apply NoDup_incl_length; auto. intros q I. apply in_seq. apply B in I. lia. } rewrite seq_length in H. lia.
Qed.
Lemma stores_bound : forall h s l, heap_ok h -> stores h s l -> (length (s :: all_blocks l) < h_next h)%nat.
Proof.
  intros h s l HO ST. apply nodup_bound. apply ST. intros q I. apply stores_old with (1 := HO) (2 := ST) in I. destruct I as (A & B & _). unfold null in B. lia. apply HO.
Qed.
Lemma size_spec : forall h s l, stores h s l -> size h s = Ret (Z.of_nat (length l)).
Proof. intros h s l (SN & SB & _). unfold size, get_storage. destruct s; [exfalso; apply SN; reflexivity|]. rewrite SB. reflexivity. Qed.
Lemma value_spec : forall h s l n id, stores h s l -> (length l < n)%nat ->
  new_param_value n h s id = Ret (match (if id <? 0 then None else nth_error l (Z.to_nat id)) with
     | Some x => match naddr x with O => None | a => Some (raw_entry (nentry x), a) end | None => None end).
Proof.
  intros h s l n id (SN & SB & CH & ND) L. unfold new_param_value, get_storage. rewrite SB. unfold header. cbn [bind s_first]. rewrite (param_from_spec h l n _ id 0 CH L). rewrite Z.sub_0_r. reflexivity.
Qed.

(** paths *)
Lemma at_nth_split : forall (A : Type) (f : A -> A) l1 x l2, at_nth (length l1) f (l1 ++ x :: l2) = l1 ++ f x :: l2.
Proof. intros A f. induction l1 as [|y l1 IH]; intros x l2; cbn; congruence. Qed.
Lemma map_at_nth : forall (A B : Type) (g : A -> B) f f' l i, (forall x, nth_error l i = Some x -> g (f x) = f' (g x)) -> map g (at_nth i f l) = at_nth i f' (map g l).
Proof. intros A B g f f'. induction l as [|x l IH]; intros i H; destruct i; cbn; auto. rewrite H; auto. rewrite IH; auto. Qed.
Lemma at_nth_ext : forall (A : Type) (f g : A -> A) l i, (forall x, nth_error l i = Some x -> f x = g x) -> at_nth i f l = at_nth i g l.
Proof. intros A f g. induction l as [|x l IH]; intros i H; destruct i; cbn; auto. rewrite H; auto. rewrite IH; auto. Qed.
Lemma focus : forall path h s l t lt, heap_ok h -> stores h s l -> sub_nodes path s l = Some (t, lt) ->
  stores h t lt /\ resolve h s path = Ret t /\ (forall q, In q (t :: all_blocks lt) -> In q (s :: all_blocks l)) /\
  forall h' lt', evolves h h' t lt lt' -> exists l', evolves h h' s l l' /\ map shape_of l' = splug path (map shape_of lt') (map shape_of l).
Proof.
  induction path as [|i path IH]; intros h s l t lt HO ST E; cbn [sub_nodes] in E.
  - injection E as <- <-. split; auto. split; auto. split; auto. intros h' lt' EV. exists lt'. auto.
  - destruct (nth_error l i) as [x|] eqn:NX; [|discriminate]. destruct x as [|p e s' li|]; try discriminate. destruct (nth_error_split _ _ NX) as (l1 & l2 & EL & LI). rewrite EL in *. clear l EL.
    assert (STI := nested_stores _ _ _ _ _ _ _ _ ST). destruct (IH h s' li t lt HO STI E) as (A & B & C & D). split; auto. split.
    { cbn [resolve]. rewrite (value_spec _ _ _ _ _ ST). 2:{ assert (X := stores_bound _ _ _ HO ST). assert (Y := length_blocks (l1 ++ NStor p e s' li :: l2)). cbn [length] in X. lia. }
      destruct (Z.ltb_spec (Z.of_nat i) 0); [lia|]. rewrite Nat2Z.id, NX. cbn [bind naddr]. assert (SN' : s' <> null) by apply STI. destruct s'; [exfalso; apply SN'; reflexivity|]. exact B. }
    split. { intros q I. right. rewrite all_blocks_app, all_blocks_cons, blocks_stor. apply in_or_app. right. apply in_or_app. left. right. apply in_or_app. right. apply C. exact I. }
    intros h' lt' EV. destruct (D h' lt' EV) as (li' & EV' & SH). exists (l1 ++ NStor p e s' li' :: l2). split. apply nested_evolves; auto.
    cbn [splug]. rewrite !map_app. cbn [map]. rewrite <- LI, <- (map_length shape_of l1), at_nth_split. cbn [shape_of]. rewrite SH. reflexivity.
Qed.
Lemma sub_shape : forall path s l z, ssub path (map shape_of l) = Some z -> exists t lt, sub_nodes path s l = Some (t, lt) /\ map shape_of lt = z.
Proof.
  induction path as [|i path IH]; intros s l z E; cbn [ssub sub_nodes] in *. - injection E as <-. eauto.
  - rewrite nth_error_map in E. destruct (nth_error l i) as [x|]; [|discriminate]. cbn in E. destruct x; try discriminate. cbn [shape_of] in E. apply IH. auto.
Qed.
Lemma tree_blocks_app : forall a b, tree_blocks (a ++ b) = tree_blocks a ++ tree_blocks b.
Proof. intros. unfold tree_blocks. apply flat_map_app. Qed.
Lemma tree_blocks_cons : forall s l b, tree_blocks ((s, l) :: b) = (s :: all_blocks l) ++ tree_blocks b.
Proof. reflexivity. Qed.
Lemma in_tree : forall t s l q, In (s, l) t -> In q (s :: all_blocks l) -> In q (tree_blocks t).
Proof. intros t s l q I J. unfold tree_blocks. apply in_flat_map. exists (s, l). auto. Qed.
Lemma world_old : forall ext st t q, world ext st t -> In q (tree_blocks t) -> (q < h_next (st_heap st))%nat.
Proof.
  intros ext st t q (HO & _ & ST & _) I. unfold tree_blocks in I. apply in_flat_map in I. destruct I as ((s, l) & I & J). apply ST in I. apply stores_old with (1 := HO) (2 := I) in J. apply J.
Qed.
Lemma world_evolves : forall ext st t1 s l t2 h' l', world ext st (t1 ++ (s, l) :: t2) -> evolves (st_heap st) h' s l l' ->
  world ext (Build_state h' (st_roots st)) (t1 ++ (s, l') :: t2).
Proof.
  intros ext st t1 s l t2 h' l' W EV. assert (OLD := fun q => world_old _ _ _ q W). destruct W as (HO & RT & ST & EX & ND & DX & LV). destruct EV as (HO' & ST' & A & B & C). rewrite tree_blocks_app, tree_blocks_cons in *.
  set (U := tree_blocks t1) in *. set (V := tree_blocks t2) in *. apply nodup_app in ND. destruct ND as (N1 & N2 & N3). apply nodup_app in N2. destruct N2 as (N4 & N5 & N6).
  assert (FR : forall q, In q U \/ In q V -> h_blk h' q = h_blk (st_heap st) q).
  { intros q I. assert (NI : ~ In q (s :: all_blocks l)). { intros J. destruct I as [I|I]. apply (N3 q I). apply in_or_app. auto. apply (N6 q J I). } apply B; auto. intros J. apply A in J. destruct J as [J|J]. apply NI. right. auto.
    assert (q < h_next (st_heap st))%nat; [|lia]. apply OLD. destruct I as [I|I]. apply in_or_app. auto. apply in_or_app. right. apply in_or_app. auto. }
  assert (FRESH : forall q, In q (s :: all_blocks l') -> In q (s :: all_blocks l) \/ (h_next (st_heap st) <= q)%nat). { intros q [<-|I]. left. left. auto. apply A in I. destruct I; auto. left. right. auto. }
  split; auto. split. { cbn [st_roots]. rewrite RT, !map_app. reflexivity. } cbn [st_heap]. split; [|split; [|split; [|split]]].
  - intros s0 l0 I. apply in_app_or in I. destruct I as [I|[I|I]].
    + apply (stores_frame (st_heap st)). intros q J. apply FR. left. apply (in_tree _ _ _ _ I J). apply ST. apply in_or_app. auto. + injection I as <- <-. auto.
    + apply (stores_frame (st_heap st)). intros q J. apply FR. right. apply (in_tree _ _ _ _ I J). apply ST. apply in_or_app. right. right. auto.
  - intros q x I. assert (NI := DX q (in_map fst _ _ I)). cbn [fst] in NI. rewrite B. apply EX. auto. intros J. apply NI. apply in_or_app. right. apply in_or_app. auto.
    intros J. apply A in J. destruct J as [J|J]. apply NI. apply in_or_app. right. apply in_or_app. left. right. auto. assert (h_blk (st_heap st) q <> None) by (rewrite (EX _ _ I); discriminate). apply live_old in H; auto. cbn in *. lia.
  - rewrite tree_blocks_app, tree_blocks_cons. fold U V. apply nodup_app. split; auto. split. apply nodup_app. split. apply ST'. split; auto.
    + intros q I J. apply FRESH in I. destruct I as [I|I]. apply (N6 q I J). assert (q < h_next (st_heap st))%nat; [|lia]. apply OLD. apply in_or_app. right. apply in_or_app. auto.
    + intros q I J. apply in_app_or in J. destruct J as [J|J]; [|apply (N3 q I); apply in_or_app; auto]. apply FRESH in J. destruct J as [J|J]. apply (N3 q I). apply in_or_app. auto. assert (q < h_next (st_heap st))%nat; [|lia]. apply OLD. apply in_or_app. auto.
  - intros q I J. assert (NI := DX q I). rewrite tree_blocks_app, tree_blocks_cons in J. fold U V in J. apply in_app_or in J. destruct J as [J|J]. apply NI. apply in_or_app. auto. apply in_app_or in J. destruct J as [J|J].
    + apply FRESH in J. destruct J as [J|J]. apply NI. apply in_or_app. right. apply in_or_app. auto. apply in_map_iff in I. destruct I as ((q', x) & E & I). cbn in E. subst q'. assert (h_blk (st_heap st) q <> None) by (rewrite (EX _ _ I); discriminate). apply live_old in H; auto. lia.
    + apply NI. apply in_or_app. right. apply in_or_app. auto.
  - intros q I. rewrite tree_blocks_app, tree_blocks_cons. fold U V. destruct (in_dec Nat.eq_dec q (s :: all_blocks l')) as [J|J]. left. apply in_or_app. right. apply in_or_app. auto.
    destruct (in_dec Nat.eq_dec q (all_blocks l)) as [K|K]. { exfalso. apply I. apply C; auto. intros L. apply J. right. auto. }
    assert (NI : ~ In q (s :: all_blocks l)). { intros [<-|L]; auto. apply J. left. auto. }
    rewrite B in I; auto. apply LV in I. destruct I as [I|I]; auto. left. apply in_app_or in I. apply in_or_app. destruct I as [I|I]; auto. right. apply in_app_or in I. apply in_or_app. destruct I; auto. contradiction. intros L. apply J. right. auto.
Qed.
Lemma world_same : forall ext st t h', world ext st t -> heap_ok h' -> (forall q, h_blk h' q = h_blk (st_heap st) q) -> world ext (Build_state h' (st_roots st)) t.
Proof.
  intros ext st t h' (HO & RT & ST & EX & ND & DX & LV) HO' E. split; auto. split; auto. cbn [st_heap]. split. intros s l I. apply (stores_frame (st_heap st)); auto. split. intros q x I. rewrite E. auto. split; auto. split; auto. intros q I. rewrite E in I. auto.
Qed.
(** the storage at a path, and what changing it means *)
Lemma world_at : forall ext st t k path z, world ext st t -> seq_at (seqs t) k path = Some z ->
  exists d lt, storage_at st k path = Ret d /\ stores (st_heap st) d lt /\ map shape_of lt = z /\ (forall q, In q (d :: all_blocks lt) -> exists s l, nth_error t k = Some (s, l) /\ In q (s :: all_blocks l)) /\
    forall h' lt', evolves (st_heap st) h' d lt lt' -> exists t', world ext (Build_state h' (st_roots st)) t' /\ seqs t' = put_at (seqs t) k path (map shape_of lt').
Proof.
  intros ext st t k path z W E. unfold seq_at, seqs in E. rewrite nth_error_map in E. destruct (nth_error t k) as [(s, l)|] eqn:NT; [|discriminate]. cbn in E.
  destruct (sub_shape path s l z E) as (d & lt & SU & SH). assert (W' := W). destruct W as (HO & RT & ST & _). destruct (nth_error_split _ _ NT) as (t1 & t2 & ET & LT).
  assert (STs : stores (st_heap st) s l) by (apply ST; eapply nth_error_In; eauto). destruct (focus path _ s l d lt HO STs SU) as (A & B & C & D).
  exists d, lt. split. { unfold storage_at. rewrite RT, nth_error_map, NT. exact B. } split; auto. split; auto. split. { intros q I. exists s, l. auto. }
  intros h' lt' EV. destruct (D h' lt' EV) as (l' & EV' & SH'). rewrite ET in W'. exists (t1 ++ (s, l') :: t2). split. eapply world_evolves; eauto.
  unfold put_at, seqs. rewrite ET, !map_app. cbn [map snd]. rewrite <- LT, <- (map_length (fun x => map shape_of (snd x)) t1), at_nth_split. rewrite SH'. reflexivity.
Qed.

Lemma swhole_whole : forall va x, swhole va (shape_of x) -> whole va x.
Proof.
  intros va. apply (node_ind2 (fun x => swhole va (shape_of x) -> whole va x)). - intros. exact I.
  - intros p e s l F H. apply whole_stor. cbn [shape_of swhole] in H. destruct H as ((r & E & V) & H). split. { exists r. split; auto. destruct e; cbn in E; congruence. }
    induction F as [|y l A F IH]; constructor; cbn [map] in H; destruct H; auto.
  - intros p e H. exact H.
Qed.
Lemma write_evolves : forall h s l i p e a b0 b, heap_ok h -> stores h s l -> nth_error l i = Some (NBuf p e a b0) -> length b = length b0 ->
  exists l', evolves h (write h a (BBytes b)) s l l' /\ map shape_of l' = at_nth i (fun _ => SBuf (entry_of e) b) (map shape_of l) /\ l' = at_nth i (fun _ => NBuf p e a b) l.
Proof.
  intros h s l i p e a b0 b HO ST NX LB. assert (OLD := fun q => stores_old _ _ _ q HO ST). destruct (nth_error_split _ _ NX) as (l1 & l2 & EL & LI). rewrite EL in *. clear l EL NX. destruct ST as (SN & SB & CH & ND).
  exists (l1 ++ NBuf p e a b :: l2). split. 2:{ rewrite !map_app. cbn [map]. split. rewrite <- LI, <- (map_length shape_of l1), at_nth_split. reflexivity. rewrite <- LI, at_nth_split. reflexivity. }
  assert (EB : forall z, all_blocks (l1 ++ NBuf p e a z :: l2) = (all_blocks l1 ++ p :: entry_block e) ++ [a] ++ all_blocks l2). { intros z. rewrite all_blocks_app, all_blocks_cons. unfold blocks_of. cbn [nptr owned]. repeat (cbn [app]; rewrite <- ?app_assoc). reflexivity. }
  assert (CX : contents h (NBuf p e a b0)). { apply chain_app in CH. destruct CH as (_ & CH). cbn [chain] in CH. apply CH. } destruct CX as (EH & AN & BN & AB).
  assert (AI : (a < h_next h)%nat). { apply live_old; auto. rewrite AB. discriminate. }
  assert (AF : forall q, q <> a -> h_blk (write h a (BBytes b)) q = h_blk h q) by (intros; apply write_other; auto).
  assert (NA : ~ In a (s :: all_blocks l1 ++ p :: entry_block e) /\ ~ In a (all_blocks l2)).
  { rewrite EB in ND. change (NoDup ((s :: all_blocks l1 ++ p :: entry_block e) ++ [a] ++ all_blocks l2)) in ND. apply nodup_app in ND. destruct ND as (_ & N1 & N2). split. intros I. apply (N2 a I). left. auto. inversion N1. auto. } destruct NA as (NA1 & NA2).
  split. { destruct HO as (X1 & X2 & X3). split; auto. split. rewrite AF; auto. intros q Q. cbn in Q. rewrite AF by lia. apply X3. auto. }
  split; [|split; [|split]].
  - split; auto. split. { rewrite AF. rewrite SB. f_equal. apply header_replace. reflexivity. intros ->. apply NA1. left. auto. } split.
    + apply (chain_replace h _ (NBuf p e a b0)); auto. { unfold param_of. cbn [nsize nentry naddr]. rewrite LB. reflexivity. }
      * split. { apply (entry_frame h); auto. intros q I. apply AF. intros ->. apply NA1. right. apply in_or_app. right. right. auto. } split; auto. split. { intros ->. apply BN. destruct b0; [auto|discriminate]. } apply write_same.
      * cbn [nptr]. intros q I. apply AF. intros ->. apply in_app_or in I. destruct I as [I|[I|I]]; auto. apply NA1. right. apply in_or_app. auto. apply NA1. right. apply in_or_app. right. left. auto.
    + rewrite EB in *. auto.
  - intros q I. rewrite EB in *. auto.
  - intros q I J. rewrite EB in *. apply AF. intros ->. apply J. apply in_or_app. right. left. auto.
  - intros q I J. rewrite EB in *. contradiction.
Qed.
Lemma cleanup_evolves : forall h s l, heap_ok h -> stores h s l -> exists h', cleanup (h_next h) h s = Ret h' /\ evolves h h' s l [] /\ h_ok h' = h_ok h /\ h_next h' = h_next h.
Proof.
  intros h s l HO ST. destruct (cleanup_stores (h_next h) h s l HO ST) as (h' & E & HO' & ST' & O & N & F1 & F2). { assert (X := stores_bound _ _ _ HO ST). assert (Y := weights_blocks l). cbn [length] in X. lia. }
  exists h'. split; auto. split; auto. split; auto. split; auto. split; [|split]. - intros q I. destruct I. - intros q I J. apply F2. intros ->. apply I. left. auto. intros K. apply I. right. auto. - intros q I J. auto.
Qed.
Lemma world_new : forall ext st t p h', world ext st t -> new_storage (st_heap st) = (p, h') -> p <> null -> world ext (Build_state h' (st_roots st ++ [p])) (t ++ [(p, [])]).
Proof.
  intros ext st t p h' W E PN. assert (OLD := fun q => world_old _ _ _ q W). destruct W as (HO & RT & ST & EX & ND & DX & LV). unfold new_storage in E. destruct (alloc_spec _ _ _ _ HO E) as (HO' & O & N & [(-> & _)|(_ & PE & PB & F)]); [exfalso; apply PN; reflexivity|].
  assert (OLDX : forall q x, In (q, x) ext -> (q < h_next (st_heap st))%nat). { intros q x I. apply live_old; auto. rewrite (EX _ _ I). discriminate. }
  split; auto. split. { cbn [st_roots]. rewrite RT, map_app. reflexivity. } cbn [st_heap]. split; [|split; [|split; [|split]]].
  - intros s l I. apply in_app_or in I. destruct I as [I|[I|[]]].
    + apply (stores_frame (st_heap st)); auto. intros q J. apply F. assert (K := OLD q (in_tree _ _ _ _ I J)). lia. + injection I as <- <-. split; auto. split; auto. split. exact Logic.I. constructor. intros []. constructor.
  - intros q x I. rewrite F; auto. apply OLDX in I. lia.
  - rewrite tree_blocks_app. apply nodup_app. split; auto. split. { cbn. repeat constructor. intros []. } intros q I [<-|J]. cbn in I. apply OLD in I. lia. destruct J.
  - intros q I J. rewrite tree_blocks_app in J. apply in_app_or in J. destruct J as [J|[J|J]]. apply (DX q I J). cbn in J. subst q. apply in_map_iff in I. destruct I as ((q, x) & Q & I). cbn in Q. subst q. apply OLDX in I. lia. destruct J.
  - intros q I. rewrite tree_blocks_app. destruct (Nat.eq_dec q p) as [->|NE]. left. apply in_or_app. right. left. auto. rewrite F in I by auto. apply LV in I. destruct I; auto. left. apply in_or_app. auto.
Qed.
Lemma world_delete : forall ext st t1 s l t2, world ext st (t1 ++ (s, l) :: t2) ->
  exists h', delete (h_next (st_heap st)) (st_heap st) s = Ret h' /\ h_ok h' = h_ok (st_heap st) /\ h_next h' = h_next (st_heap st) /\ world ext (Build_state h' (map fst (t1 ++ t2))) (t1 ++ t2).
Proof.
  intros ext st t1 s l t2 (HO & RT & ST & EX & ND & DX & LV). assert (STs : stores (st_heap st) s l) by (apply ST; apply in_or_app; right; left; auto).
  destruct (delete_stores (h_next (st_heap st)) _ s l HO STs) as (h' & E & HO' & (O & N & F1 & F2)). { assert (X := stores_bound _ _ _ HO STs). assert (Y := weights_blocks l). cbn [length] in X. lia. }
  exists h'. split; auto. split; auto. split; auto. rewrite tree_blocks_app, tree_blocks_cons in *. apply nodup_app in ND. destruct ND as (N1 & N2 & N3). apply nodup_app in N2. destruct N2 as (N4 & N5 & N6).
  assert (FR : forall q, In q (tree_blocks t1) \/ In q (tree_blocks t2) -> h_blk h' q = h_blk (st_heap st) q).
  { intros q I. apply F2. intros J. destruct I as [I|I]. apply (N3 q I). apply in_or_app. auto. apply (N6 q J I). }
  split; auto. split; auto. cbn [st_heap]. split; [|split; [|split; [|split]]].
  - intros s0 l0 I. apply (stores_frame (st_heap st)). + intros q J. apply FR. apply in_app_or in I. destruct I as [I|I]; [left|right]; apply (in_tree _ _ _ _ I J). + apply ST. apply in_app_or in I. apply in_or_app. destruct I; auto. right. right. auto.
  - intros q x I. rewrite F2; auto. intros J. apply (DX q (in_map fst _ _ I)). apply in_or_app. right. apply in_or_app. auto.
  - rewrite tree_blocks_app. apply nodup_app. split; auto. split; auto. intros q I J. apply (N3 q I). apply in_or_app. auto.
  - intros q I J. apply (DX q I). rewrite tree_blocks_app in J. apply in_app_or in J. apply in_or_app. destruct J; auto. right. apply in_or_app. auto.
  - intros q I. destruct (in_dec Nat.eq_dec q (s :: all_blocks l)) as [K|K]. exfalso. apply I. auto. rewrite F2 in I by auto. apply LV in I. destruct I as [I|I]; auto. left. rewrite tree_blocks_app. apply in_app_or in I. apply in_or_app. destruct I as [I|I]; auto. apply in_app_or in I. destruct I; auto. contradiction.
Qed.
Lemma src_means : forall ext st t e m, world ext st t -> means ext e m -> entry_src (st_heap st) e m.
Proof. intros ext st t e m (_ & _ & _ & EX & _) M. destruct e, m; cbn in *; auto. Qed.
Lemma oom_back : forall (oom : bool) h, (oom = false -> no_oom h) -> ~ no_oom h -> oom = true.
Proof. intros [|] h A B; auto. Qed.

(** one step of a program *)
Lemma step_ok : forall va ext oom st t o, world ext st t -> (oom = false -> no_oom (st_heap st)) -> (exists z w', astep va ext false o (seqs t) z w') ->
  (run_op va st o = Abort /\ oom = true) \/
  exists z st' t', run_op va st o = Ret (z, st') /\ world ext st' t' /\ astep va ext oom o (seqs t) z (seqs t') /\ (oom = false -> no_oom (st_heap st')).
Proof.
  intros va ext oom st t o W OO (z0 & w0 & LEGAL). assert (W' := W). destruct W' as (HO & RT & _). destruct o as [|k path e sz|k path r|k path i b|k path|k path k' path'|k]; cbn [run_op].
  - right. destruct (new_storage (st_heap st)) as (p, h') eqn:E. assert (E' := E). unfold new_storage in E'. destruct (alloc_spec _ _ _ _ HO E') as (HO' & O & N & [(-> & OF & F)|(PN & PE & PB & F)]).
    + unfold null. exists (- ENOMEM), (Build_state h' (st_roots st)), t. split; auto. split. apply world_same; auto. assert (OM : oom = true). { destruct oom; auto. exfalso. assert (X := OO eq_refl). rewrite X in OF. discriminate. lia. } split. apply a_new_fail; auto. discriminate. intros; congruence.
    + destruct p as [|p0] eqn:EP; [exfalso; apply PN; reflexivity|]. rewrite <- EP in *. clear EP p0. exists 0, (Build_state h' (st_roots st ++ [p])), (t ++ [(p, [])]). split; auto. split. apply world_new; auto. split. { unfold seqs at 2. rewrite map_app. apply a_new. } intros X k K. cbn [st_heap] in *. rewrite O. apply (OO X). lia.
  - right. assert (SEQ : exists l, seq_at (seqs t) k path = Some l) by (inversion LEGAL; eauto). destruct SEQ as (l & SEQ). destruct (world_at _ _ _ _ _ _ W SEQ) as (d & lt & -> & ST & SH & _ & UP). cbn [bind].
    destruct (Z.leb_spec sz 0) as [SZ|SZ].
    + unfold append_by_buffer. assert (SN : d <> null) by apply ST. destruct d; [exfalso; apply SN; reflexivity|]. destruct (Z.leb_spec sz 0); [|lia]. cbn [bind]. exists (- EINVAL), (Build_state (st_heap st) (st_roots st)), t. split; auto. split. apply world_same; auto. split. eapply a_append_inval; eauto. auto.
    + assert (M : exists m, means ext e m) by (inversion LEGAL; try congruence; eauto; lia). destruct M as (m & M).
      destruct (append_by_buffer_spec _ d lt e m sz HO ST (src_means _ _ _ _ _ W M) SZ) as (r & h' & -> & HO' & O & N & CS). cbn [bind].
      assert (OO' : oom = false -> no_oom h') by (intros X; eapply no_oom_later; eauto).
      destruct CS as [(R & NO & BS)|(-> & x & SX & AP)].
      * exists r, (Build_state h' (st_roots st)), t. split; auto. split. apply world_same; auto. split; auto. assert (OM : oom = true) by (apply (oom_back oom (st_heap st)); auto). eapply a_append_fail; eauto.
      * destruct (UP _ _ (appended_evolves _ _ _ _ _ HO' AP)) as (t' & W2 & S2). exists 0, (Build_state h' (st_roots st)), t'. split; auto. split; auto. split; auto. rewrite S2, map_app, SH. cbn [map]. rewrite SX. apply a_append; auto.
  - right. assert (SEQ : exists l, seq_at (seqs t) k path = Some l /\ va r = true) by (inversion LEGAL; eauto). destruct SEQ as (l & SEQ & V). destruct (world_at _ _ _ _ _ _ W SEQ) as (d & lt & -> & ST & SH & _ & UP). cbn [bind].
    destruct (append_by_storage_spec va (h_next (st_heap st)) _ d lt r HO ST V) as (z & h' & -> & HO' & O & N & CS). apply HO. cbn [bind].
    assert (OO' : oom = false -> no_oom h') by (intros X; eapply no_oom_later; eauto).
    destruct CS as [(R & NO & BS)|(-> & x & SX & AP)].
    + exists z, (Build_state h' (st_roots st)), t. split; auto. split. apply world_same; auto. split; auto. assert (OM : oom = true) by (apply (oom_back oom (st_heap st)); auto). eapply a_storage_fail; eauto.
    + destruct (UP _ _ (appended_evolves _ _ _ _ _ HO' AP)) as (t' & W2 & S2). exists 0, (Build_state h' (st_roots st)), t'. split; auto. split; auto. split; auto. rewrite S2, map_app, SH. cbn [map].
      destruct SX as [->|(-> & NO)]. apply a_storage; auto. apply a_storage_null; auto. apply (oom_back oom (st_heap st)); auto.
  - right. inversion LEGAL as [| | | | | | | |? ? ? ? ? l m b0 SEQ NX LB| | | |]; subst. destruct (world_at _ _ _ _ _ _ W SEQ) as (d & lt & -> & ST & SH & _ & UP). cbn [bind]. rewrite <- SH in NX. rewrite nth_error_map in NX. destruct (nth_error lt i) as [x|] eqn:NT; [|discriminate]. cbn in NX.
    destruct x as [p e a b1|? ? ? ?|? ?]; try discriminate. cbn [shape_of] in NX. injection NX as <- <-.
    rewrite (value_spec _ _ _ _ _ ST). 2:{ assert (X := stores_bound _ _ _ HO ST). assert (Y := length_blocks lt). cbn [length] in X. lia. }
    destruct (Z.ltb_spec (Z.of_nat i) 0); [lia|]. rewrite Nat2Z.id, NT. cbn [bind naddr nentry].
    assert (CX : contents (st_heap st) (NBuf p e a b1)). { destruct (nth_error_split _ _ NT) as (l1 & l2 & EL & _). destruct ST as (_ & _ & C & _). rewrite EL in C. apply chain_app in C. destruct C as (_ & C). cbn [chain] in C. apply C. } destruct CX as (_ & AN & _ & AB).
    destruct a as [|a0] eqn:EA; [exfalso; apply AN; reflexivity|]. rewrite <- EA in *. clear EA a0. unfold get_bytes. rewrite AB. cbn [bind]. rewrite LB, Nat.eqb_refl.
    destruct (write_evolves _ d lt i p e a b1 b HO ST NT LB) as (lt' & EV & SH' & _). destruct (UP _ _ EV) as (t' & W2 & S2). exists 0, (Build_state (write (st_heap st) a (BBytes b)) (st_roots st)), t'. split; auto. split; auto. split; auto. rewrite S2, SH', SH. eapply a_write; eauto. rewrite <- SH, nth_error_map, NT. reflexivity.
  - right. inversion LEGAL as [| | | | | | | | |? ? ? l SEQ| | |]; subst. destruct (world_at _ _ _ _ _ _ W SEQ) as (d & lt & -> & ST & SH & _ & UP). cbn [bind].
    destruct (cleanup_evolves _ d lt HO ST) as (h' & -> & EV & O & N). cbn [bind]. destruct (UP _ _ EV) as (t' & W2 & S2). exists 0, (Build_state h' (st_roots st)), t'. split; auto. split; auto. split. rewrite S2. eapply a_cleanup; eauto. intros X. eapply no_oom_later; eauto. cbn [st_heap]. lia.
  - inversion LEGAL as [| | | | | | | | | |? ? ? ? ? ls ld NK SEQ1 WH SEQ2| |]; subst; [|discriminate]. destruct (world_at _ _ _ _ _ _ W SEQ1) as (s & lt & -> & STs & SHs & INs & _). destruct (world_at _ _ _ _ _ _ W SEQ2) as (d & lt2 & -> & STd & SHd & INd & UP). cbn [bind].
    assert (WH' : Forall (whole va) lt). { rewrite <- SHs in WH. apply Forall_forall. intros x I. apply swhole_whole. rewrite Forall_forall in WH. apply WH. apply in_map. auto. }
    assert (DJ : forall q, In q (s :: all_blocks lt) -> ~ In q (d :: all_blocks lt2)).
    { intros q I J. apply INs in I. apply INd in J. destruct I as (s1 & l1 & T1 & I). destruct J as (s2 & l2 & T2 & J). destruct W as (_ & _ & _ & _ & ND & _). clear -NK T1 T2 I J ND.
      revert k k' NK T1 T2. induction t as [|(s, l) t IH]; intros k k' NK T1 T2; [destruct k; discriminate|]. rewrite tree_blocks_cons in ND. apply nodup_app in ND. destruct ND as (N1 & N2 & N3). destruct k, k'; try congruence; cbn [nth_error] in T1, T2.
      - injection T1 as -> ->. apply nth_error_In in T2. apply (N3 q I). apply (in_tree _ _ _ _ T2 J). - injection T2 as -> ->. apply nth_error_In in T1. apply (N3 q J). apply (in_tree _ _ _ _ T1 I). - apply (IH N2 k k'); auto. }
    assert (BD : (weights lt < h_next (st_heap st))%nat). { assert (X := stores_bound _ _ _ HO STs). assert (Y := weights_blocks lt). cbn [length] in X. lia. }
    unfold copy. assert (GS : get_storage (st_heap st) s = Ret (Build_storage (first_of lt null) (Z.of_nat (length lt)) (last_of lt null))). { unfold get_storage. destruct STs as (_ & B & _). rewrite B. reflexivity. } rewrite GS. cbn [bind s_first].
    destruct (copy_spec va (h_next (st_heap st)) _ lt (PHead s) d lt2 HO) as [(-> & NO)|(r & h' & ln & -> & O & N & EV & R0 & R1)]; auto. apply STs. { intros q I. apply DJ. right. auto. }
    + left. cbn [bind]. split; auto. apply (oom_back oom (st_heap st)); auto.
    + right. cbn [bind]. destruct (UP _ _ EV) as (t' & W2 & S2). exists r, (Build_state h' (st_roots st)), t'. split; auto. split; auto. split. 2:{ intros X. eapply no_oom_later; eauto. }
      rewrite S2, map_app, SHd. destruct (Z.eq_dec r 0) as [->|NZ]. rewrite R0, SHs by auto. apply a_copy; auto. assert (OM : oom = true) by (apply (oom_back oom (st_heap st)); auto). eapply a_copy_fail; eauto.
  - right. inversion LEGAL as [| | | | | | | | | | | |? ? LK]; subst. unfold seqs in LK. rewrite map_length in LK. destruct (nth_error t k) as [(s, l)|] eqn:NT; [|apply nth_error_None in NT; lia]. rewrite RT, nth_error_map, NT. cbn [option_map fst].
    destruct (nth_error_split _ _ NT) as (t1 & t2 & ET & LT). rewrite ET in W. destruct (world_delete _ _ _ _ _ _ W) as (h' & -> & O & N & W2). cbn [bind].
    assert (CUT : forall (A : Type) (f : (ptr * list node) -> A), firstn k (map f t) ++ skipn (S k) (map f t) = map f (t1 ++ t2)).
    { intros A f. rewrite ET, !map_app. cbn [map]. rewrite <- LT, <- (map_length f t1). rewrite firstn_app, firstn_all, Nat.sub_diag. cbn [firstn]. rewrite app_nil_r. f_equal.
      replace (map f t1 ++ f (s, l) :: map f t2) with ((map f t1 ++ [f (s, l)]) ++ map f t2) by (rewrite <- app_assoc; reflexivity). rewrite skipn_app, skipn_all2 by (rewrite app_length; cbn; lia). rewrite app_length. cbn [length]. replace (S (length (map f t1)) - (length (map f t1) + 1))%nat with 0%nat by lia. reflexivity. }
    rewrite CUT. exists 0, (Build_state h' (map fst (t1 ++ t2))), (t1 ++ t2). split; auto. split; auto. split. { unfold seqs. rewrite <- CUT. apply a_delete. rewrite map_length. auto. } intros X. eapply no_oom_later; eauto. cbn [st_heap]. lia.
Qed.
Lemma run_ok : forall va ext oom p st t, world ext st t -> (oom = false -> no_oom (st_heap st)) -> legal va ext oom p (seqs t) ->
  (run va st p = Abort /\ oom = true) \/ exists rs st' t', run va st p = Ret (rs, st') /\ world ext st' t' /\ asteps va ext oom p (seqs t) rs (seqs t').
Proof.
  intros va ext oom. induction p as [|o k IH]; intros st t W OO L; cbn [run legal] in *. { right. exists [], st, t. split; auto. split; auto. constructor. }
  destruct L as (LG & L). destruct (step_ok va ext oom st t o W OO LG) as [(-> & X)|(z & st1 & t1 & -> & W1 & A & OO1)]; [left; auto|]. cbn [bind].
  destruct (IH z st1 t1 W1 OO1 (L _ _ A)) as [(-> & X)|(rs & st2 & t2 & -> & W2 & AS)]; [left; auto|]. cbn [bind]. right. exists (z :: rs), st2, t2. split; auto. split; auto. econstructor; eauto.
Qed.
(** reading *)
Lemma read_ok : forall ext st t k path l, world ext st t -> seq_at (seqs t) k path = Some l ->
  exists d, storage_at st k path = Ret d /\ size (st_heap st) d = Ret (Z.of_nat (length l)) /\
  forall id, exists v, new_param_value (h_next (st_heap st)) (st_heap st) d id = Ret v /\
    match (if id <? 0 then None else nth_error l (Z.to_nat id)) with
    | None => v = None
    | Some (SNull _) => v = None
    | Some (SBuf m b) => exists e a, v = Some (e, a) /\ entry_src (st_heap st) e m /\ get_bytes (st_heap st) a = Ret b
    | Some (SStor m li) => exists e a, v = Some (e, a) /\ entry_src (st_heap st) e m /\ storage_at st k (path ++ [Z.to_nat id]) = Ret a /\ seq_at (seqs t) k (path ++ [Z.to_nat id]) = Some li
    end.
Proof.
  intros ext st t k path l W SEQ. assert (HO : heap_ok (st_heap st)) by apply W. destruct (world_at _ _ _ _ _ _ W SEQ) as (d & lt & SA & ST & SH & _ & _). exists d. split; auto. split. { rewrite <- SH, map_length. apply size_spec; auto. }
  intros id. rewrite (value_spec _ _ _ _ _ ST). 2:{ assert (X := stores_bound _ _ _ HO ST). assert (Y := length_blocks lt). cbn [length] in X. lia. }
  eexists. split; [reflexivity|]. destruct (Z.ltb_spec id 0) as [NEG|POS]; auto. rewrite <- SH, nth_error_map. destruct (nth_error lt (Z.to_nat id)) as [x|] eqn:NX; cbn [option_map]; auto.
  assert (CX : contents (st_heap st) x). { destruct (nth_error_split _ _ NX) as (l1 & l2 & EL & _). destruct ST as (_ & _ & C & _). rewrite EL in C. apply chain_app in C. destruct C as (_ & C). cbn [chain] in C. apply C. }
  destruct x as [p e a b|p e s' li|p e]; cbn [shape_of naddr nentry]; auto.
  - destruct CX as (EH & AN & _ & AB). destruct a as [|a0] eqn:EA; [exfalso; apply AN; reflexivity|]. rewrite <- EA in *. clear EA a0. exists (raw_entry e), a. split; auto. split. apply holds_src; auto. unfold get_bytes. rewrite AB. reflexivity.
  - apply (proj1 (contents_stor _ _ _ _ _)) in CX. destruct CX as (EH & AN & _). destruct s' as [|a0] eqn:EA; [exfalso; apply AN; reflexivity|]. rewrite <- EA in *. clear EA a0. exists (raw_entry e), s'. split; auto. split. apply holds_src; auto.
    assert (SQ : seq_at (seqs t) k (path ++ [Z.to_nat id]) = Some (map shape_of li)).
    { unfold seq_at in *. destruct (nth_error (seqs t) k) as [l0|]; [|discriminate]. clear -SEQ SH NX. revert l0 SEQ. induction path as [|i path IH]; intros l0 SEQ; cbn [ssub app] in *.
      - injection SEQ as ->. rewrite <- SH, nth_error_map, NX. reflexivity. - destruct (nth_error l0 i) as [[| |]|]; try discriminate. auto. }
    split; auto. destruct (world_at _ _ _ _ _ _ W SQ) as (d2 & lt2 & SA2 & _). rewrite SA2.
    assert (R : forall h s q path, resolve h s path = Ret q -> resolve h s (path ++ [Z.to_nat id]) = resolve h q [Z.to_nat id]).
    { clear. intros h s q path. revert s. induction path as [|i path IH]; intros s E; cbn [resolve app] in *. congruence. destruct (new_param_value (h_next h) h s (Z.of_nat i)) as [v| | |]; cbn [bind] in E |- *; try discriminate. destruct v as [(e, a)|]; try discriminate. auto. }
    unfold storage_at in *. destruct (nth_error (st_roots st) k) as [s|]; [|discriminate]. rewrite (R _ _ _ _ SA) in SA2. cbn [resolve] in SA2. rewrite (value_spec _ _ _ _ _ ST) in SA2. 2:{ assert (X := stores_bound _ _ _ HO ST). assert (Y := length_blocks lt). cbn [length] in X. lia. }
    rewrite Z2Nat.id in SA2 by auto. destruct (Z.ltb_spec id 0); [lia|]. rewrite NX in SA2. cbn [bind naddr] in SA2. destruct s'; [exfalso; apply AN; reflexivity|]. congruence.
Qed.
Lemma delete_all_ok : forall va ext t st, world ext st t ->
  exists st', run va st (delete_all (length t)) = Ret (repeat 0 (length t), st') /\ st_roots st' = [] /\ forall q, h_blk (st_heap st') q <> None <-> In q (map fst ext).
Proof.
  intros va ext. induction t as [|(s, l) t IH]; intros st W.
  - exists st. split; auto. destruct W as (_ & RT & _ & EX & _ & _ & LV). split; auto. intros q. split. intros I. apply LV in I. destruct I as [I|I]; auto. destruct I. intros I. apply in_map_iff in I. destruct I as ((q', x) & <- & I). cbn [fst]. rewrite (EX _ _ I). discriminate.
  - cbn [length repeat]. change (delete_all (S (length t))) with (Then (ODelete 0) (fun _ => delete_all (length t))). cbn [run run_op]. assert (RT : st_roots st = s :: map fst t) by apply W. rewrite RT. cbn [nth_error]. destruct (world_delete ext st [] s l t W) as (h' & -> & O & N & W2). cbn [bind app firstn skipn] in *.
    destruct (IH _ W2) as (st' & -> & R & LV). cbn [bind]. exists st'. auto.
Qed.
(** copying a storage with buffers onto itself never ends *)
Definition is_buf (x : node) : Prop := match x with NBuf _ _ _ _ => True | _ => False end.
Lemma self_copy : forall va n h s l1 x l2, heap_ok h -> no_oom h -> stores h s (l1 ++ x :: l2) -> Forall is_buf (x :: l2) -> copy_from va n h (nptr x) s = OutOfFuel.
Proof.
  intros va. induction n as [|k IH]; intros h s l1 x l2 HO NO ST FB; auto. cbn [copy_from]. assert (ST' := ST). destruct ST as (SN & SB & CH & ND). apply chain_app in CH. destruct CH as (_ & CH). cbn [chain] in CH. destruct CH as (XN & XB & XC & CH).
  destruct (nptr x) as [|x1] eqn:EX; [exfalso; apply XN; reflexivity|]. rewrite <- EX in *. clear EX x1. rewrite (get_param_ok _ _ _ XB). cbn [bind param_of p_size p_entry p_addr p_next].
  inversion FB as [|? ? BX FB']; subst. destruct x as [p e a b|? ? ? ?|? ?]; try contradiction. destruct XC as (EH & AN & BN & AB). cbn [nsize naddr nentry nptr] in *. assert (LB : 0 < Z.of_nat (length b)) by (destruct b; [congruence|cbn; lia]). destruct (Z.eqb_spec (Z.of_nat (length b)) 0); [lia|]. cbn [negb].
  destruct (append_by_buffer_spec h s _ (raw_entry e) (entry_of e) _ HO ST' (holds_src h e EH) LB) as (r & h1 & -> & HO1 & O1 & N1 & CS). cbn [bind]. destruct CS as [(R & NO' & BS)|(-> & x' & SH & AP)]; [contradiction|]. cbn [Z.eqb negb].
  destruct AP as (ST1 & RG & FR). destruct (last_node _ _ _ _ ST1) as (G1 & pv' & G2). rewrite G1. cbn [bind s_last]. rewrite G2. cbn [bind param_of p_addr p_size]. destruct x' as [p' e' a' b'|? ? ? ?|? ?]; try discriminate. cbn [shape_of] in SH. injection SH as SE SB'.
  assert (C1 : contents h1 (NBuf p' e' a' b')). { destruct ST1 as (_ & _ & C & _). apply chain_app in C. destruct C as (_ & C). cbn [chain] in C. apply C. } destruct C1 as (EH' & AN' & BN' & AB'). cbn [naddr nsize]. destruct (Nat.eqb_spec a' null); [contradiction|]. rewrite SB', repeat_length, Nat2Z.id, Z.eqb_refl. cbn [negb andb].
  assert (A1 : contents h1 (NBuf p e a b) /\ exists pv2, h_blk h1 p = Some (BParam (param_of (NBuf p e a b) (first_of (l2 ++ [NBuf p' e' a' b']) null) pv2))).
  { destruct ST1 as (_ & _ & C & _). rewrite <- app_assoc in C. apply chain_app in C. destruct C as (_ & C). cbn [app chain] in C. split. apply C. destruct C as (_ & C & _). eexists. exact C. } destruct A1 as ((_ & _ & _ & A1) & pv2 & A2).
  assert (GA : get_bytes h1 a = Ret b) by (unfold get_bytes; rewrite A1; reflexivity). rewrite GA. cbn [bind]. assert (GA' : get_bytes h1 a' = Ret b') by (unfold get_bytes; rewrite AB'; reflexivity). rewrite GA'. cbn [bind].
  rewrite SB', repeat_length, Nat2Z.id. destruct (Z.ltb_spec (Z.of_nat (length b)) (Z.of_nat (length b))); [lia|]. cbn [orb]. rewrite firstn_all, skipn_all2, app_nil_r by (rewrite repeat_length; lia).
  set (h2 := write h1 a' (BBytes b)).
  assert (NE : p <> a'). { intros ->. congruence. } assert (GP : get_param h2 p = Ret (param_of (NBuf p e a b) (first_of (l2 ++ [NBuf p' e' a' b']) null) pv2)). { apply get_param_ok. unfold h2. rewrite write_other by auto. exact A2. }
  rewrite GP. cbn [bind param_of p_next].
  assert (NTH : nth_error ((l1 ++ NBuf p e a b :: l2) ++ [NBuf p' e' a' b']) (length (l1 ++ NBuf p e a b :: l2)) = Some (NBuf p' e' a' b')). { rewrite nth_error_app2, Nat.sub_diag by lia. reflexivity. }
  assert (LB' : length b = length b') by (rewrite SB', repeat_length; lia). destruct (write_evolves h1 s _ _ _ _ _ _ b HO1 ST1 NTH LB') as (l' & (HO2 & ST2 & _) & _ & EL'). fold h2 in HO2, ST2.
  assert (NO2 : no_oom h2). { apply (no_oom_later h1). reflexivity. cbn. lia. apply (no_oom_later h); auto. }
  rewrite EL', at_nth_split in ST2. rewrite <- app_assoc in ST2. cbn [app] in ST2. destruct l2 as [|y l2]; cbn [app first_of] in *.
  - apply (IH h2 s (l1 ++ [NBuf p e a b]) (NBuf p' e' a' b) []); auto. rewrite <- app_assoc. exact ST2.
  - apply (IH h2 s (l1 ++ [NBuf p e a b]) y (l2 ++ [NBuf p' e' a' b])); auto. rewrite <- app_assoc. exact ST2. inversion FB'; subst. constructor; auto. apply Forall_app. split; auto.
Qed.
Lemma self_copy_hangs : forall va ext st t k l n, world ext st t -> no_oom (st_heap st) -> seq_at (seqs t) k [] = Some l -> l <> [] -> Forall (fun x => match x with SBuf _ _ => True | _ => False end) l ->
  exists s, storage_at st k [] = Ret s /\ copy va n (st_heap st) s s = OutOfFuel.
Proof.
  intros va ext st t k l n W NO SEQ NE FB. destruct (world_at _ _ _ _ _ _ W SEQ) as (d & lt & SA & ST & SH & _ & _). exists d. split; auto. subst l. destruct lt as [|x lt]; [contradiction|]. unfold copy, get_storage. assert (HB : h_blk (st_heap st) d = Some (header (x :: lt))) by apply ST. rewrite HB. unfold header. cbn [bind s_first first_of].
  apply (self_copy va n _ d [] x lt); auto. apply W. apply Forall_forall. intros y I. rewrite Forall_forall in FB. specialize (FB (shape_of y) (in_map _ _ _ I)). destruct y; cbn in *; auto.
Qed.

Lemma at_nth_other : forall (A : Type) (f : A -> A) l i j, i <> j -> nth_error (at_nth i f l) j = nth_error l j.
Proof. intros A f. induction l as [|x l IH]; intros i j N; destruct i, j; cbn; auto; congruence. Qed.
Lemma at_nth_same : forall (A : Type) (f : A -> A) l i, nth_error (at_nth i f l) i = option_map f (nth_error l i).
Proof. intros A f. induction l as [|x l IH]; intros i; destruct i; cbn; auto. Qed.
Lemma put_same : forall w k path l new, seq_at w k path = Some l -> seq_at (put_at w k path new) k path = Some new.
Proof.
  intros w k path l new. unfold seq_at, put_at. rewrite at_nth_same. destruct (nth_error w k) as [l0|]; [|discriminate]. cbn [option_map]. revert l0. induction path as [|i path IH]; intros l0 E; cbn [ssub splug] in *; auto.
  rewrite at_nth_same. destruct (nth_error l0 i) as [[|e li|]|]; try discriminate. cbn [option_map]. auto.
Qed.
Lemma copy_ok : forall va ext st t k path k' path' ls ld, world ext st t -> no_oom (st_heap st) -> k <> k' -> seq_at (seqs t) k path = Some ls -> Forall (swhole va) ls -> seq_at (seqs t) k' path' = Some ld ->
  exists st' t', run_op va st (OCopy k path k' path') = Ret (0, st') /\ world ext st' t' /\ seqs t' = put_at (seqs t) k' path' (ld ++ ls) /\
    seq_at (seqs t') k' path' = Some (ld ++ ls) /\ forall j, j <> k' -> nth_error (seqs t') j = nth_error (seqs t) j.
Proof.
  intros va ext st t k path k' path' ls ld W NO NK SK WH SD. destruct (step_ok va ext false st t (OCopy k path k' path') W (fun _ => NO)) as [(_ & X)|(z & st' & t' & E & W' & A & _)]. { exists 0. eexists. eapply a_copy; eauto. } discriminate.
  inversion A as [| | | | | | | | | |? ? ? ? ? ls' ld' NK' SK' WH' SD'| |]; subst; [|discriminate]. assert (ls' = ls) by congruence. assert (ld' = ld) by congruence. subst. exists st', t'. split; auto. split; auto. match goal with X : put_at _ _ _ _ = seqs t' |- _ => rewrite <- X end. split; auto. split. eapply put_same; eauto.
  intros j NJ. unfold put_at. apply at_nth_other. auto.
Qed.
Lemma copy_inv : forall va ext oom k path k' path' w z w', astep va ext oom (OCopy k path k' path') w z w' ->
  exists ls ld part, seq_at w k path = Some ls /\ seq_at w k' path' = Some ld /\ w' = put_at w k' path' (ld ++ part) /\ (z = 0 -> part = ls).
Proof.
  intros va ext oom k path k' path' w z w' A. inversion A as [| | | | | | | | | |? ? ? ? ? ls' ld' NK' SK' WH' SD'|? ? ? ? ? ls' ld' part ? NK' SK' WH' SD' OM NZ|]; subst.
  - exists ls', ld', ls'. auto. - exists ls', ld', part. split; auto. split; auto. split; auto. intros; contradiction.
Qed.
Lemma copy_fails : forall va ext st t k path k' path' ls ld, world ext st t -> k <> k' -> seq_at (seqs t) k path = Some ls -> Forall (swhole va) ls -> seq_at (seqs t) k' path' = Some ld ->
  run_op va st (OCopy k path k' path') = Abort \/
  exists z st' t', run_op va st (OCopy k path k' path') = Ret (z, st') /\ world ext st' t' /\ (forall j, j <> k' -> nth_error (seqs t') j = nth_error (seqs t) j) /\ exists part, seq_at (seqs t') k' path' = Some (ld ++ part) /\ (z = 0 -> part = ls).
Proof.
  intros va ext st t k path k' path' ls ld W NK SK WH SD. destruct (step_ok va ext true st t (OCopy k path k' path') W) as [(X & _)|(z & st' & t' & E & W' & A & _)]; auto. discriminate. { exists 0. eexists. eapply a_copy; eauto. }
  right. exists z, st', t'. split; auto. split; auto.
  destruct (copy_inv _ _ _ _ _ _ _ _ _ _ A) as (ls' & ld' & part & E1 & E2 & E3 & E4). assert (ls' = ls) by congruence. assert (ld' = ld) by congruence. subst. rewrite E3. split. { intros j NJ. unfold put_at. apply at_nth_other. auto. }
  exists part. split; auto. eapply put_same; eauto.
Qed.

(** the specification without failures, computed (for examples) *)
Fixpoint swholeb (va : ref -> bool) (x : shape) : bool :=
  match x with
  | SBuf _ _ => true
  | SStor (inl r) l => va r && (fix all (l : list shape) : bool := match l with [] => true | y :: r => swholeb va y && all r end) l
  | _ => false
  end.
Definition spec_entry (ext : list (ptr * entry)) (e : entry_ptr) : option (ref + entry) :=
  match e with EStatic r => Some (inl r) | EBlock q => option_map (fun x => inr (snd x)) (find (fun x => Nat.eqb (fst x) q) ext) end.
Definition spec_step (va : ref -> bool) (ext : list (ptr * entry)) (o : op) (w : list (list shape)) : option (Z * list (list shape)) :=
  match o with
  | ONew => Some (0, w ++ [[]])
  | OAppend k path e sz =>
    match seq_at w k path with
    | None => None
    | Some l => if sz <=? 0 then Some (- EINVAL, w) else match spec_entry ext e with Some m => Some (0, put_at w k path (l ++ [SBuf m (repeat 0 (Z.to_nat sz))])) | None => None end
    end
  | OAppendStorage k path r => match seq_at w k path with Some l => if va r then Some (0, put_at w k path (l ++ [SStor (inl r) []])) else None | None => None end
  | OWrite k path i b =>
    match seq_at w k path with
    | Some l => match nth_error l i with Some (SBuf m b0) => if Nat.eqb (length b) (length b0) then Some (0, put_at w k path (at_nth i (fun _ => SBuf m b) l)) else None | _ => None end
    | None => None
    end
  | OCleanup k path => match seq_at w k path with Some _ => Some (0, put_at w k path []) | None => None end
  | OCopy k path k' path' =>
    match seq_at w k path, seq_at w k' path' with
    | Some ls, Some ld => if negb (Nat.eqb k k') && forallb (swholeb va) ls then Some (0, put_at w k' path' (ld ++ ls)) else None
    | _, _ => None
    end
  | ODelete k => if Nat.ltb k (length w) then Some (0, firstn k w ++ skipn (S k) w) else None
  end.
Lemma swholeb_ok : forall va x, swholeb va x = true -> swhole va x.
Proof.
  intros va. fix IH 1. intros [e b|e l|e]; cbn [swholeb swhole]; intros H; auto; [|discriminate]. destruct e as [r|x]; [|discriminate]. apply andb_prop in H. destruct H as (V & H). split. exists r. auto.
  revert H. induction l as [|y l IHl]; intros H; auto. apply andb_prop in H. destruct H. split. apply IH; auto. apply IHl; auto.
Qed.
Lemma spec_step_sound : forall va ext o w z w', spec_step va ext o w = Some (z, w') -> astep va ext false o w z w'.
Proof.
  intros va ext [|k path e sz|k path r|k path i b|k path|k path k' path'|k] w z w' H; cbn [spec_step] in H.
  - injection H as <- <-. constructor.
  - destruct (seq_at w k path) as [l|] eqn:S; [|discriminate]. destruct (Z.leb_spec sz 0). injection H as <- <-. eapply a_append_inval; eauto. destruct (spec_entry ext e) as [m|] eqn:E; [|discriminate]. injection H as <- <-. apply a_append; auto.
    destruct e as [r|q]; cbn in E. injection E as <-. reflexivity. destruct (find (fun x => Nat.eqb (fst x) q) ext) as [(q', x)|] eqn:F; [|discriminate]. injection E as <-. apply find_some in F. destruct F as (F & G). cbn in *. apply Nat.eqb_eq in G. subst. auto.
  - destruct (seq_at w k path) as [l|] eqn:S; [|discriminate]. destruct (va r) eqn:V; [|discriminate]. injection H as <- <-. apply a_storage; auto.
  - destruct (seq_at w k path) as [l|] eqn:S; [|discriminate]. destruct (nth_error l i) as [[m b0| |]|] eqn:N; try discriminate. destruct (Nat.eqb_spec (length b) (length b0)); [|discriminate]. injection H as <- <-. eapply a_write; eauto.
  - destruct (seq_at w k path) as [l|] eqn:S; [|discriminate]. injection H as <- <-. eapply a_cleanup; eauto.
  - destruct (seq_at w k path) as [ls|] eqn:S; [|discriminate]. destruct (seq_at w k' path') as [ld|] eqn:S'; [|discriminate]. destruct (Nat.eqb_spec k k'); [discriminate|]. cbn [negb andb] in H. destruct (forallb _ ls) eqn:F; [|discriminate]. injection H as <- <-. apply (a_copy _ _ _ _ _ path); auto.
    apply Forall_forall. intros x I. apply swholeb_ok. rewrite forallb_forall in F. auto.
  - destruct (Nat.ltb_spec k (length w)); [|discriminate]. injection H as <- <-. apply a_delete. auto.
Qed.
Lemma spec_step_complete : forall va ext o w z w' z2 w2, NoDup (map fst ext) -> astep va ext false o w z w' -> spec_step va ext o w = Some (z2, w2) -> z2 = z /\ w2 = w'.
Proof.
  intros va ext o w z w' z2 w2 ND A H. inversion A as [|? ? OM|? ? ? ? m ? l SQ ME SZ|? ? ? ? ? ? ? ? ? ? OM|? ? ? ? ? l SQ SZ|? ? ? ? l SQ VA|? ? ? ? ? ? ? ? OM|? ? ? ? ? ? ? OM|? ? ? ? ? l m b0 SQ NX LB|? ? ? l SQ|? ? ? ? ? ls ld NK SQ WH SQ2|? ? ? ? ? ? ? ? ? ? ? ? ? OM|? ? LK]; subst; try discriminate; cbn [spec_step] in H; repeat match goal with X : seq_at _ _ _ = Some _, Y : context [seq_at ?w ?k ?p] |- _ => rewrite X in Y end.
  - split; congruence.
  - destruct (Z.leb_spec sz 0); [lia|]. assert (E : spec_entry ext e = Some m). { destruct e as [r|q], m as [r'|x]; cbn in *; try contradiction. congruence.
      destruct (find (fun x0 => Nat.eqb (fst x0) q) ext) as [(q', y)|] eqn:F. - apply find_some in F. destruct F as (F & G). cbn in G. apply Nat.eqb_eq in G. subst q'. cbn. do 2 f_equal.
        clear -F ME ND. induction ext as [|(q', z) ext IH]; [contradiction|]. cbn in ND. inversion ND; subst. match goal with X : ~ In _ _ |- _ => rename X into NI end. destruct F as [F|F], ME as [I|I]; try congruence. + injection F as -> ->. exfalso. apply NI. apply (in_map fst) in I. exact I. + injection I as -> ->. exfalso. apply NI. apply (in_map fst) in F. exact F. + auto.
      - exfalso. assert (X := find_none _ _ F _ ME). cbn in X. rewrite Nat.eqb_refl in X. discriminate. } rewrite E in H. split; congruence.
  - destruct (Z.leb_spec sz 0); [|lia]. split; congruence.
  - rewrite VA in H. split; congruence.
  - rewrite NX, LB, Nat.eqb_refl in H. split; congruence.
  - split; congruence.
  - destruct (negb (Nat.eqb k k') && forallb (swholeb va) ls); [|discriminate]. split; congruence.
  - destruct (Nat.ltb _ _); [|discriminate]. split; congruence.
Qed.
Fixpoint legalb (va : ref -> bool) (ext : list (ptr * entry)) (p : prog) (w : list (list shape)) : bool :=
  match p with Done => true | Then o k => match spec_step va ext o w with Some (z, w') => legalb va ext (k z) w' | None => false end end.
Lemma legalb_ok : forall va ext p w, NoDup (map fst ext) -> legalb va ext p w = true -> legal va ext false p w.
Proof.
  intros va ext p. induction p as [|o k IH]; intros w ND H; cbn [legal legalb] in *; auto. destruct (spec_step va ext o w) as [(z, w')|] eqn:S; [|discriminate]. split. exists z, w'. apply spec_step_sound. auto.
  intros z2 w2 A. destruct (spec_step_complete _ _ _ _ _ _ _ _ ND A S) as (-> & ->). auto.
Qed.
Fixpoint spec_run (va : ref -> bool) (ext : list (ptr * entry)) (p : prog) (w : list (list shape)) : option (list Z * list (list shape)) :=
  match p with
  | Done => Some ([], w)
  | Then o k => match spec_step va ext o w with Some (z, w') => option_map (fun x => (z :: fst x, snd x)) (spec_run va ext (k z) w') | None => None end
  end.
Lemma spec_run_ok : forall va ext p st t rs w, world ext st t -> no_oom (st_heap st) -> NoDup (map fst ext) -> spec_run va ext p (seqs t) = Some (rs, w) ->
  exists st' t', run va st p = Ret (rs, st') /\ world ext st' t' /\ seqs t' = w /\ no_oom (st_heap st').
Proof.
  intros va ext. induction p as [|o k IH]; intros st t rs w W NO ND H; cbn [spec_run run] in *. { injection H as <- <-. exists st, t. auto. }
  destruct (spec_step va ext o (seqs t)) as [(z, w')|] eqn:S; [|discriminate]. destruct (step_ok va ext false st t o W (fun _ => NO)) as [(_ & X)|(z' & st1 & t1 & -> & W1 & A & OO)]; [exists z, w'; apply spec_step_sound; auto|discriminate|]. cbn [bind].
  destruct (spec_step_complete _ _ _ _ _ _ _ _ ND A S) as (-> & ->). destruct (spec_run va ext (k z') (seqs t1)) as [(rs1, w1)|] eqn:R; [|discriminate]. cbn in H. injection H as <- <-.
  destruct (IH z' st1 t1 rs1 w1 W1 (OO eq_refl) ND R) as (st2 & t2 & -> & W2 & E & N). cbn [bind]. exists st2, t2. auto.
Qed.
