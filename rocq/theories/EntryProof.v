From Coq Require Import ZArith String List Bool Lia ZifyBool.
From Verif Require Import Base EntryModel EntrySpec.
Import ListNotations.
Open Scope Z_scope.

Lemma stands_for_fun : forall i t q t' q', stands_for i t q -> stands_for i t' q' -> t = t' /\ q = q'.
Proof. intros i t q t' q' A B. inversion A; subst; inversion B; subst; auto. Qed.
Lemma resolves_fun : forall d p qs f, resolves d p qs f -> forall qs' f', resolves d p qs' f' -> qs = qs' /\ f = f'.
Proof.
  intros d p qs f A. induction A; intros qs' f' B.
  - inversion B; auto.
  - inversion B; subst; auto. exfalso. eapply H; eauto.
  - inversion B; subst. + exfalso. eapply H1; eauto.
    + match goal with S2 : stands_for (e_info (deref d e)) _ _, R : resolves d (lift _) _ f' |- _ =>
        destruct (stands_for_fun _ _ _ _ _ H S2) as [-> ->]; destruct (IHA _ _ R) as [-> ->] end. auto.
Qed.
Lemma resolves_final : forall d p qs f, resolves d p qs f ->
  match f with None => True | Some e => final_kind (e_info (deref d e)) end.
Proof. intros d p qs f A; induction A; auto. Qed.
Lemma resolves_idem : forall d p qs f, resolves d p qs f -> resolves d f [] f.
Proof. intros d p qs f A; induction A; auto; constructor; auto. Qed.

Definition add_all (qs : list qual) (s : quals) : quals := fold_left (fun s q => add_qual q s) qs s.
Lemma add_all_flags : forall qs s, 
  (q_const (add_all qs s) = true <-> q_const s = true \/ In QConst qs) /\
  (q_volatile (add_all qs s) = true <-> q_volatile s = true \/ In QVolatile qs) /\
  (q_restrict (add_all qs s) = true <-> q_restrict s = true \/ In QRestrict qs) /\
  (q_mutable (add_all qs s) = true <-> q_mutable s = true \/ In QMutable qs) /\
  (q_shared (add_all qs s) = true <-> q_shared s = true \/ In QShared qs) /\
  (q_packed (add_all qs s) = true <-> q_packed s = true \/ In QPacked qs).
Proof.
  induction qs as [|q qs IH]; intros s.
  - cbn. tauto.
  - cbn [add_all fold_left In]. fold (add_all qs (add_qual q s)). destruct (IH (add_qual q s)) as (A & B & C & D & E & F).
    rewrite A, B, C, D, E, F. destruct q; cbn; rewrite ?orb_false_r, ?orb_true_r;
      repeat split; intros; repeat (match goal with H : _ \/ _ |- _ => destruct H end); auto; try discriminate.
Qed.

Definition final_out (d : db) (f : option eptr) (acc out : quals) : quals :=
  match f with
  | None => out
  | Some e => match e_info (deref d e) with IParam true _ => out | _ => acc end
  end.
Lemma final_loop_ok : forall d p qs f, resolves d p qs f -> exists n0, forall n acc out, (n0 <= n)%nat ->
  final_loop n d p acc out = Ret (f, final_out d f (add_all qs acc) out).
Proof.
  intros d p qs f A. induction A.
  - exists 1%nat. intros n acc out L. destruct n as [|n]; [lia|]. reflexivity.
  - exists 1%nat. intros n acc out L. destruct n as [|n]; [lia|].
    cbn [final_loop add_all fold_left final_out].
    destruct (e_info (deref d e)) as [ | | | | | | |m| | |u t| | | ] eqn:I; try reflexivity;
      try (exfalso; eapply H; constructor; fail). destruct u; [reflexivity|]. exfalso; eapply H; constructor.
  - destruct IHA as (n0 & IH). exists (S n0). intros n acc out L. destruct n as [|n]; [lia|].
    cbn [final_loop]. inversion H; subst; cbn [opt_list app]; rewrite IH by lia; reflexivity.
Qed.
Lemma final_loop_inv2 : forall n d p acc out f q, final_loop n d p acc out = Ret (f, q) ->
  exists qs, resolves d p qs f /\ q = final_out d f (add_all qs acc) out.
Proof.
  induction n as [|n IH]; intros d p acc out f q H; [discriminate|]. cbn [final_loop] in H.
  destruct p as [e|]; [|injection H as <- <-; exists []; split; [constructor|reflexivity]].
  assert (SK : forall t q' acc', stands_for (e_info (deref d e)) t q' -> final_loop n d (lift t) acc' out = Ret (f, q) -> acc' = add_all (opt_list q') acc ->
     exists qs, resolves d (Some e) qs f /\ q = final_out d f (add_all qs acc) out).
  { intros t q' acc' K R ->. apply IH in R. destruct R as (qs & R & ->). exists (opt_list q' ++ qs). split; [econstructor; eauto|].
    unfold add_all. rewrite fold_left_app. reflexivity. }
  destruct (e_info (deref d e)) as [ | | | | | | |m| | |u t| | | ] eqn:I;
    try (injection H as <- <-; exists []; split; [constructor; rewrite I; intros ? ? K; inversion K|cbn; rewrite I; reflexivity]; fail);
    try (eapply SK; [constructor|eassumption|reflexivity]; fail).
  destruct u. + injection H as <- <-. exists []; split; [constructor; rewrite I; intros ? ? K; inversion K|cbn; rewrite I; reflexivity].
  + eapply SK; [constructor|eassumption|reflexivity].
Qed.
Lemma final_loop_inv : forall n d p acc out f q, final_loop n d p acc out = Ret (f, q) -> exists qs, resolves d p qs f.
Proof. intros n d p acc out f q H. destruct (final_loop_inv2 _ _ _ _ _ _ _ H) as (qs & R & _). eauto. Qed.
Lemma final_loop_ranked : forall d rank, (forall r t, contained (e_info (d r)) (Some t) -> (rank t < rank r)%nat) ->
  forall n p acc out, match p with Some (St r) => (rank r + 1 < n)%nat | Some (Dy e) => forall t, contained (e_info e) (Some t) -> (rank t + 2 < n)%nat | None => True end ->
  (2 <= n)%nat -> exists x, final_loop n d p acc out = Ret x.
Proof.
  intros d rank R. induction n as [|n IH]; intros p acc out HP L; [lia|]. cbn [final_loop].
  destruct p as [e|]; [|eauto].
  assert (SK : forall t q acc', stands_for (e_info (deref d e)) t q -> exists x, final_loop n d (lift t) acc' out = Ret x).
  { intros t q acc' K. destruct t as [t|]; cbn [lift option_map].
    - destruct e as [r|e]; cbn [deref] in K.
      + assert (C : (rank t < rank r)%nat) by (apply R; left; eauto). apply IH; lia.
      + assert (C := HP t (or_introl (ex_intro _ _ K))). apply IH; lia.
    - destruct n; [lia|]. cbn. eauto. }
  destruct (e_info (deref d e)) as [ | | | | | | |m| | |u t| | | ]; eauto;
    try (eapply SK; constructor; fail). destruct u; eauto. eapply SK; constructor.
Qed.

(** final_entry *)
Lemma add_all_none : forall qs, flags_are (add_all qs no_quals) qs.
Proof.
  intros qs. destruct (add_all_flags qs no_quals) as (H1 & H2 & H3 & H4 & H5 & H6). unfold flags_are. rewrite H1, H2, H3, H4, H5, H6. cbn.
  repeat split; intros; auto; repeat (match goal with H : _ \/ _ |- _ => destruct H end); auto; discriminate.
Qed.
Lemma final_entry_spec : forall n d p out f q, final_entry n d p out = Ret (f, q) ->
  exists qs, resolves d p qs f /\
    match f with
    | None => q = out
    | Some e => final_kind (e_info (deref d e)) /\
                (is_dots (e_info (deref d e)) -> q = out) /\ (~ is_dots (e_info (deref d e)) -> flags_are q qs)
    end.
Proof.
  intros n d p out f q H. unfold final_entry in H. destruct p as [p|].
  - destruct (final_loop_inv2 _ _ _ _ _ _ _ H) as (qs & R & ->). exists qs. split; auto. assert (RF := resolves_final _ _ _ _ R).
    unfold final_out. destruct f as [e|]; auto. split; auto. split.
    + intros (t & ->). reflexivity.
    + intros ND. destruct (e_info (deref d e)) as [ | | | | | | |m| | |u t| | | ]; try apply add_all_none. destruct u; try apply add_all_none.
      exfalso; apply ND; unfold is_dots; eauto.
  - injection H as <- <-. exists []. split; [constructor|reflexivity].
Qed.
Lemma final_entry_enough : forall d p qs f, resolves d p qs f -> exists n0, forall n out, (n0 <= n)%nat ->
  exists q, final_entry n d p out = Ret (f, q).
Proof.
  intros d p qs f A. destruct (final_loop_ok _ _ _ _ A) as (n0 & E). exists n0. intros n out L. unfold final_entry. destruct p as [p|].
  - rewrite (E n no_quals out L). eauto.
  - inversion A; subst. eauto.
Qed.
Lemma final_entry_idem : forall n d p out f q, final_entry n d p out = Ret (f, q) ->
  forall m out', (0 < m)%nat -> exists q', final_entry m d f out' = Ret (f, q').
Proof.
  intros n d p out f q H m out' M. destruct (final_entry_spec _ _ _ _ _ _ H) as (qs & _ & FK). unfold final_entry. destruct f as [e|]; [|eauto].
  destruct FK as (FK & _). destruct m as [|m]; [lia|]. cbn [final_loop].
  destruct (e_info (deref d e)) as [ | | | | | | |mm| | |u t| | | ]; eauto; try (exfalso; eapply FK; constructor; fail).
  destruct u; eauto. exfalso; eapply FK; constructor.
Qed.
Lemma final_entry_inv : forall n d p out f q, final_entry n d p out = Ret (f, q) -> exists qs, resolves d p qs f.
Proof.
  intros n d p out f q H. unfold final_entry in H. destruct p.
  - eapply final_loop_inv; eauto.
  - injection H as <- <-. exists []. constructor.
Qed.
Lemma final_entry_total : forall d n p out, acyclic d n -> exists x, final_entry (n + 3) d p out = Ret x.
Proof.
  intros d n p out (rank & B & R). unfold final_entry. destruct p as [e|]; [|eauto].
  apply final_loop_ranked with (rank := rank); auto; [|lia]. destruct e as [r|e].
  - specialize (B r); lia.
  - intros t _. specialize (B t); lia.
Qed.

Lemma final_entry_no_crash : forall n d p out, final_entry n d p out = OutOfFuel \/ exists x, final_entry n d p out = Ret x.
Proof.
  intros n d p out. unfold final_entry. destruct p as [p|]; [|eauto]. generalize (Some p) no_quals. induction n as [|n IH]; intros p' acc.
  - auto.
  - cbn [final_loop]. destruct p' as [e|]; [|eauto]. destruct (e_info (deref d e)) as [ | | | | | | |m| | |u t| | | ]; eauto. destruct u; eauto.
Qed.
Lemma final_if_inv : forall n d p w x, final_if n d p w = Ret x ->
  exists f, final_type d p f /\ x = match f with Some e => if w (e_info (deref d e)) then Some e else None | None => None end.
Proof.
  intros n d p w x H. unfold final_if in H. destruct (final_entry n d p no_quals) as [[f q]| | |] eqn:E; try discriminate.
  cbn [bind fst] in H. exists f. split. + eapply final_entry_inv; eauto. + destruct f; congruence.
Qed.
Lemma final_if_total : forall d n p w, acyclic d n -> exists x, final_if (n + 3) d p w = Ret x.
Proof.
  intros d n p w A. destruct (final_entry_total d n p no_quals A) as ((f & q) & E). unfold final_if. rewrite E. cbn [bind fst].
  destruct f; eauto.
Qed.
Lemma final_type_fun : forall d p f g, final_type d p f -> final_type d p g -> f = g.
Proof. intros d p f g (qs & A) (qs' & B). eapply resolves_fun; eauto. Qed.
Lemma final_type_self : forall d p f, final_type d p f -> final_type d f f.
Proof. intros d p f (qs & A). exists []. eapply resolves_idem; eauto. Qed.

(** byte_size *)
Lemma mulmod : forall a b c M, M <> 0 -> ((a * b) mod M * c) mod M = (a * b * c) mod M.
Proof. intros. rewrite Z.mul_mod_idemp_l by auto. reflexivity. Qed.
Lemma byte_size_ok : forall d p z, has_size d p z -> exists n0, forall n mult, (n0 <= n)%nat ->
  byte_size_loop n d p mult = Ret (inl (uwrap 64 (mult * z))).
Proof.
  intros d p z H. induction H;
  try (exists 1%nat; intros n' mult L; destruct n' as [|n']; [lia|]; cbn [byte_size_loop]; rewrite H; do 2 f_equal; unfold uwrap; f_equal; lia).
  - destruct IHhas_size as (n0 & IH). exists (S n0). intros n mult L. destruct n as [|n]; [lia|]. cbn [byte_size_loop].
    inversion H; subst; apply IH; lia.
  - destruct IHhas_size as (n0 & IH). exists (S n0). intros n mult L. destruct n as [|n]; [lia|]. cbn [byte_size_loop].
    rewrite H. apply IH; lia.
  - destruct IHhas_size as (n0 & IH). exists (S n0). intros n mult L. destruct n as [|n]; [lia|]. cbn [byte_size_loop].
    rewrite H. destruct (Z.leb_spec c 0); [lia|]. rewrite IH by lia. do 2 f_equal. unfold uwrap.
    rewrite mulmod by lia. f_equal. lia.
Qed.
Lemma has_size_fun : forall d p z, has_size d p z -> forall z', has_size d p z' -> z = z'.
Proof.
  intros d p z H. induction H; intros z' K; inversion K; subst; try congruence;
    try (match goal with S : stands_for ?i _ _, E : ?i = _ |- _ => rewrite E in S; inversion S end; fail).
  - destruct (stands_for_fun _ _ _ _ _ H H2) as [-> ->]. auto.
  - assert (t0 = t) by congruence. subst. auto.
  - assert (t0 = t /\ c0 = c) as [-> ->] by (split; congruence). f_equal; auto.
Qed.
Lemma byte_size_inv : forall n d p mult x, byte_size_loop n d p mult = Ret x ->
  match x with
  | inl v => exists z, has_size d p z /\ v = uwrap 64 (mult * z)
  | inr e => e = - EFAULT /\ forall z, ~ has_size d p z
  end.
Proof.
  induction n as [|n IH]; intros d p mult x H; [discriminate|]. cbn [byte_size_loop] in H.
  destruct p as [e|].
  2:{ injection H as <-. split; auto. intros z K. inversion K. }
  assert (LF : forall z, x = inl (uwrap 64 (z * mult)) -> has_size d (Some e) z ->
    match x with inl v => exists z, has_size d (Some e) z /\ v = uwrap 64 (mult * z) | inr e0 => e0 = - EFAULT /\ forall z, ~ has_size d (Some e) z end).
  { intros z -> K. exists z. split; auto. f_equal. lia. }
  assert (NS : (forall t q, ~ stands_for (e_info (deref d e)) t q) -> x = inr (- EFAULT) -> 
     match e_info (deref d e) with ISubprogram _ _ | ISubroutine _ _ | IOther _ => True | IArray _ c => c <= 0 | _ => False end ->
     match x with inl v => exists z, has_size d (Some e) z /\ v = uwrap 64 (mult * z) | inr e0 => e0 = - EFAULT /\ forall z, ~ has_size d (Some e) z end).
  { intros NSF -> K. split; auto. intros z Hz. inversion Hz; subst;
      try (match goal with E : e_info (deref d e) = _ |- _ => rewrite E in K; try contradiction; lia end). exfalso; eapply NSF; eauto. }
  assert (AL : forall t, byte_size_loop n d (lift t) mult = Ret x ->
     ((exists q, stands_for (e_info (deref d e)) t q) \/ e_info (deref d e) = IParam true t) ->
     match x with inl v => exists z, has_size d (Some e) z /\ v = uwrap 64 (mult * z) | inr e0 => e0 = - EFAULT /\ forall z, ~ has_size d (Some e) z end).
  { intros t E C. apply IH in E. destruct x as [v|er].
    - destruct E as (z & K & ->). exists z. split; auto. destruct C as [(q & C)|C]; [eapply hs_alias|eapply hs_dots]; eauto.
    - destruct E as (-> & K). split; auto. intros z Hz. apply (K z). destruct C as [(q & C)|C].
      + inversion Hz; subst; try (match goal with E : e_info (deref d e) = _ |- _ => rewrite E in C; inversion C end; fail).
        destruct (stands_for_fun _ _ _ _ _ C H1) as [-> _]. auto.
      + inversion Hz; subst; try congruence. * rewrite C in H1; inversion H1. }
  destruct (e_info (deref d e)) as [t|q t|z c|t|b z t|z l|t c|m|k z l|t|u t|t l|t l|k] eqn:I;
    try (injection H as <-; eapply LF; [reflexivity|]; solve [eapply hs_base; eassumption | eapply hs_enum; eassumption | eapply hs_pointer; eassumption | eapply hs_reference; eassumption | eapply hs_aggr; eassumption]);
    try (injection H as <-; apply NS; auto; intros ? ? K; inversion K; fail);
    try (eapply AL; [eassumption|]; left; eexists; constructor; fail).
  - apply (LF 8); [congruence|eapply hs_pointer; eassumption].
  - destruct (Z.leb_spec c 0). + injection H as <-. apply NS; auto; intros ? ? K; inversion K.
    + apply IH in H. destruct x as [v|er].
      * destruct H as (z & K & ->). exists (c * z). split; [eapply hs_array; eauto|]. unfold uwrap. rewrite mulmod by lia. f_equal; lia.
      * destruct H as (-> & K). split; auto. intros z Hz. inversion Hz; subst; try congruence.
        -- rewrite I in H1. inversion H1. -- assert (t0 = t) by congruence. subst. eapply K; eauto.
  - destruct u; (eapply AL; [eassumption|]). + right; reflexivity. + left; eexists; constructor.
Qed.
Lemma byte_size_ranked : forall d rank, (forall r t, contained (e_info (d r)) (Some t) -> (rank t < rank r)%nat) ->
  forall n p mult, match p with Some (St r) => (rank r + 1 < n)%nat | Some (Dy e) => forall t, contained (e_info e) (Some t) -> (rank t + 2 < n)%nat | None => True end ->
  (2 <= n)%nat -> exists x, byte_size_loop n d p mult = Ret x.
Proof.
  intros d rank R. induction n as [|n IH]; intros p mult HP L; [lia|]. cbn [byte_size_loop].
  destruct p as [e|]; [|eauto].
  assert (SK : forall t mult', contained (e_info (deref d e)) t -> exists x, byte_size_loop n d (lift t) mult' = Ret x).
  { intros t mult' K. destruct t as [t|]; cbn [lift option_map].
    - destruct e as [r|e]; cbn [deref] in K.
      + assert (C : (rank t < rank r)%nat) by (apply R; auto). apply IH; lia.
      + assert (C := HP t K). apply IH; lia.
    - destruct n; [lia|]. cbn. eauto. }
  destruct (e_info (deref d e)) as [t|q t|z c|t|b z t|z l|t c|m|k z l|t|u t|t l|t l|k]; eauto;
   try (apply SK; left; eexists; constructor; fail).
  - destruct (c <=? 0); eauto. apply SK. right; left; eauto.
  - destruct u; apply SK. + right; right; auto. + left; eexists; constructor.
Qed.
Lemma byte_size_total : forall d n p, acyclic d n -> exists x, byte_size (n + 3) d p = Ret x.
Proof.
  intros d n p (rank & B & R). apply byte_size_ranked with (rank := rank); auto; [|lia]. destruct p as [[r|e]|]; auto.
  - specialize (B r); lia.
  - intros t _. specialize (B t); lia.
Qed.
Lemma byte_size_spec : forall n d p x, byte_size n d p = Ret x ->
  match x with
  | inl v => exists z, has_size d p z /\ v = uwrap 64 z
  | inr e => e = - EFAULT /\ forall z, ~ has_size d p z
  end.
Proof.
  intros n d p x H. unfold byte_size in H. apply byte_size_inv in H. destruct x as [v|e]; auto.
  destruct H as (z & K & ->). exists z. split; auto. f_equal. lia.
Qed.
Lemma size_of_final : forall d p qs f, resolves d p qs f -> forall z, has_size d p z <-> has_size d f z.
Proof.
  intros d p qs f A. induction A; intros z; try tauto. rewrite <- IHA. split; intros K.
  - inversion K; subst; try (match goal with E : e_info (deref d e) = _ |- _ => rewrite E in H; inversion H end; fail).
    destruct (stands_for_fun _ _ _ _ _ H H1) as [-> _]. auto.
  - eapply hs_alias; eauto.
Qed.

(** member paths *)
Lemma name_loop_spec : forall d name l i, 0 <= i ->
  (exists pre r post, l = pre ++ r :: post /\ e_name (d r) = Some name /\ (forall x, In x pre -> e_name (d x) <> Some name) /\
     name_loop d l name i = i + Z.of_nat (length pre)) \/
  ((forall x, In x l -> e_name (d x) <> Some name) /\ name_loop d l name i = - ENOENT).
Proof.
  induction l as [|r l IH]; intros i P.
  - right. split; [intros ? []|reflexivity].
  - cbn [name_loop]. unfold named. destruct (e_name (d r)) as [s|] eqn:N.
    + destruct (String.eqb_spec s name).
      * subst. left. exists [], r, l. cbn. repeat split; auto; lia.
      * destruct (IH (i + 1) ltac:(lia)) as [(pre & x & post & -> & Nx & NN & E)|(NN & E)].
        -- left. exists (r :: pre), x, post. cbn [app In length]. repeat split; auto; [|lia].
           intros y [<-|Hy]; [congruence|auto].
        -- right. split; auto. intros y [<-|Hy]; [congruence|auto].
    + destruct (IH (i + 1) ltac:(lia)) as [(pre & x & post & -> & Nx & NN & E)|(NN & E)].
      * left. exists (r :: pre), x, post. cbn [app In length]. repeat split; auto; [|lia].
        intros y [<-|Hy]; [congruence|auto].
      * right. split; auto. intros y [<-|Hy]; [congruence|auto].
Qed.
Lemma nth_id_spec : forall l id q, nth_id l id = Some q <-> (0 <= id /\ exists r, nth_error l (Z.to_nat id) = Some r /\ q = St r).
Proof.
  intros l id q. unfold nth_id. destruct (Z.ltb_spec id 0); cbn [orb].
  - split; [discriminate|lia].
  - destruct (Z.leb_spec (Z.of_nat (length l)) id).
    + split; [discriminate|]. intros (_ & r & E & _). assert (nth_error l (Z.to_nat id) <> None) by congruence.
      apply nth_error_Some in H1. lia.
    + destruct (nth_error l (Z.to_nat id)) as [r|] eqn:E; cbn; split.
      * intros K; injection K as <-. split; auto. exists r; auto.
      * intros (_ & r' & K & ->). congruence.
      * discriminate.
      * intros (_ & r & K & _). discriminate.
Qed.
Lemma picks_fun : forall d l i r r', picks d l i r -> picks d l i r' -> r = r'.
Proof.
  intros d l i r r'. unfold picks. destruct (id_name i) as [n|].
  - intros (pre & post & -> & N & NN) (pre' & post' & E & N' & NN').
    revert pre' E NN'. induction pre as [|a pre IH]; intros pre' E NN'.
    + destruct pre' as [|b pre']; cbn in E; injection E; auto. intros _ <-. exfalso. apply (NN' r); [left; auto|auto].
    + destruct pre' as [|b pre']; cbn in E; injection E.
      * intros _ <-. exfalso. apply (NN a); [left; auto|auto].
      * intros E' <-. apply (IH ltac:(intros x Hx; apply NN; right; auto) pre' E'). intros x Hx. apply NN'. right; auto.
  - intros (_ & A) (_ & B). congruence.
Qed.
Lemma pick_step : forall (d : db) l i, 
  let id := match id_name i with Some n => name_loop d l n 0 | None => id_num i end in
  forall q, ((if match id_name i with Some _ => id <? 0 | None => false end then None else nth_id l id) = Some q) <->
            (exists r, picks d l i r /\ q = St r).
Proof.
  intros d l i id q. subst id. unfold picks. destruct (id_name i) as [n|].
  - destruct (name_loop_spec d n l 0 ltac:(lia)) as [(pre & r & post & -> & N & NN & E)|(NN & E)]; rewrite E.
    + rewrite Z.add_0_l. replace (Z.of_nat (length pre) <? 0) with false by lia. rewrite nth_id_spec.
      rewrite Nat2Z.id. rewrite nth_error_app2, Nat.sub_diag by lia. cbn [nth_error]. split.
      * intros (_ & r' & K & ->). injection K as <-. exists r. split; auto. exists pre, post. auto.
      * intros (r' & (pre' & post' & E' & N' & NN') & ->). split; [lia|]. exists r'. split; auto. f_equal.
        apply (picks_fun d (pre ++ r :: post) (Build_entry_id (Some n) 0)); unfold picks; cbn; eauto 6.
    + change (- ENOENT <? 0) with true. cbn [orb]. split; [discriminate|]. intros (r & (pre & post & -> & N & _) & _).
      exfalso. apply (NN r); auto. apply in_or_app. right; left; auto.
  - rewrite nth_id_spec. firstorder.
Qed.
Lemma final_if_final : forall n d e w x, final_if n d (Some e) w = Ret x -> final_kind (e_info (deref d e)) ->
  x = (if w (e_info (deref d e)) then Some e else None).
Proof.
  intros n d e w x H K. destruct (final_if_inv _ _ _ _ _ H) as (f & F & ->).
  assert (f = Some e) as ->. { eapply final_type_fun; [eassumption|]. exists []. constructor. auto. } reflexivity.
Qed.
Lemma aggr_final : forall i k z l, i = IAggr k z l -> final_kind i.
Proof. intros i k z l -> t q K. inversion K. Qed.
Lemma path_cons_inv : forall d p i ids q e k z l, path_to d p (i :: ids) q -> final_type d (Some p) (Some e) ->
  e_info (deref d e) = IAggr k z l -> exists r, picks d l i r /\ path_to d (St r) ids q.
Proof.
  intros d p i ids q e k z l H F I. inversion H as [|p' e' k' z' l' i' r' rest' q' F' I' P' T']; subst.
  assert (X : Some e' = Some e) by (eapply final_type_fun; eauto). injection X as ->.
  rewrite I in I'. injection I' as <- <- <-. eauto.
Qed.
Lemma by_member_ids_spec : forall n d ids p x, by_member_ids n d (Some p) false ids = Ret x -> forall q, x = Some q <-> path_to d p ids q.
Proof.
  induction ids as [|i ids IH]; intros p x H q; cbn [by_member_ids] in H.
  - injection H as <-. split. + intros K; injection K as <-. constructor. + intros K; inversion K; auto.
  - destruct (final_if n d (Some p) is_aggr_info) as [f| | |] eqn:F; try discriminate. cbn [bind] in H.
    destruct (final_if_inv _ _ _ _ _ F) as (f' & FT & Ef). destruct f as [e|].
    2:{ injection H as <-. split; [discriminate|]. intros K. inversion K; subst. assert (f' = Some e) by (eapply final_type_fun; eauto). subst.
        match goal with E : e_info (deref d e) = _ |- _ => rewrite E in Ef; discriminate end. }
    destruct f' as [e'|]; [|discriminate]. destruct (is_aggr_info (e_info (deref d e'))) eqn:A; [|discriminate]. injection Ef as ->.
    destruct (e_info (deref d e')) as [ | | | | | | | |k z l| | | | | ] eqn:I; try discriminate.
    assert (FK := aggr_final _ _ _ _ I).
    assert (ML : members_of d e' = l) by (unfold members_of; rewrite I; reflexivity).
    assert (ID : exists id, match id_name i with Some n0 => member_name_to_id n d (Some e') n0 | None => Ret (id_num i) end = Ret id /\
       id = match id_name i with Some n0 => name_loop d l n0 0 | None => id_num i end).
    { destruct (id_name i) as [nm|]; [|eauto]. unfold member_name_to_id. unfold member_name_to_id in H.
      destruct (final_if n d (Some e') is_aggr_info) as [g| | |] eqn:G; try discriminate. apply final_if_final in G; auto.
      rewrite I in G. cbn in G. subst g. cbn [bind]. rewrite ML. eauto. }
    destruct ID as (id & E & ->). rewrite E in H. cbn [bind] in H. clear E.
    assert (PS := pick_step d l i). cbv zeta in PS. revert H PS. 
    set (id := match id_name i with Some n0 => name_loop d l n0 0 | None => id_num i end).
    destruct (match id_name i with Some _ => id <? 0 | None => false end).
    + intros H PS. injection H as <-. split; [discriminate|]. intros K. destruct (path_cons_inv _ _ _ _ _ _ _ _ _ K FT I) as (r & PK & _).
      destruct (PS (St r)) as [_ PS']. discriminate PS'. eauto.
    + intros H PS. unfold by_member_id in H. destruct (final_if n d (Some e') is_aggr_info) as [g| | |] eqn:G; try discriminate. apply final_if_final in G; auto.
      rewrite I in G. cbn in G. subst g. cbn [bind] in H. rewrite ML in H. destruct (nth_id l id) as [m|] eqn:NI.
      * destruct (PS m) as [PS' _]. destruct (PS' eq_refl) as (r & PK & ->). rewrite (IH _ _ H q). split; intros K.
        -- econstructor; eauto.
        -- destruct (path_cons_inv _ _ _ _ _ _ _ _ _ K FT I) as (r' & PK' & P). rewrite (picks_fun _ _ _ _ _ PK PK'). auto.
      * assert (x = None) as ->. { destruct ids; cbn [by_member_ids] in H; congruence. } split; [discriminate|]. intros K.
        destruct (path_cons_inv _ _ _ _ _ _ _ _ _ K FT I) as (r & PK & _). destruct (PS (St r)) as [_ PS']. discriminate PS'. eauto.
Qed.
Lemma by_member_ids_total : forall d n, acyclic d n -> forall ids p final, exists x, by_member_ids (n + 3) d p final ids = Ret x.
Proof.
  intros d n A. induction ids as [|i ids IH]; intros p final; cbn [by_member_ids].
  - destruct p; [|eauto]. destruct final; [|eauto]. destruct (final_entry_total d n (Some e) no_quals A) as (x & ->). cbn. eauto.
  - destruct p as [p|]; [|eauto]. destruct (final_if_total d n (Some p) is_aggr_info A) as (f & ->). cbn [bind].
    destruct f as [e|]; [|eauto]. unfold member_name_to_id, by_member_id.
    destruct (final_if_total d n (Some e) is_aggr_info A) as (f & ->). cbn [bind].
    destruct (id_name i); cbn [bind]; [destruct (_ <? 0)|]; eauto.
Qed.
Lemma by_member_ids_final : forall n d ids p x, by_member_ids n d p true ids = Ret x ->
  exists y, by_member_ids n d p false ids = Ret y /\ final_type d y x.
Proof.
  induction ids as [|i ids IH]; intros p x H; cbn [by_member_ids] in H |- *.
  - destruct p as [p|].
    + destruct (final_entry n d (Some p) no_quals) as [[f q]| | |] eqn:E; try discriminate. cbn in H. injection H as <-.
      exists (Some p). split; auto. eapply final_entry_inv; eauto.
    + injection H as <-. exists None. split; auto. exists []. constructor.
  - destruct p as [p|].
    2:{ injection H as <-. exists None. split; auto. exists []. constructor. }
    destruct (final_if n d (Some p) is_aggr_info) as [f| | |]; try discriminate. cbn [bind] in H |- *.
    destruct f as [e|].
    2:{ injection H as <-. exists None. split; auto. exists []. constructor. }
    destruct (match id_name i with Some n0 => member_name_to_id n d (Some e) n0 | None => Ret (id_num i) end) as [id| | |]; try discriminate.
    cbn [bind] in H |- *. destruct (match id_name i with Some _ => id <? 0 | None => false end).
    { injection H as <-. exists None. split; auto. exists []. constructor. }
    destruct (by_member_id n d (Some e) id) as [q| | |]; try discriminate. cbn [bind] in H |- *. apply IH; auto.
Qed.

(** parameters *)
Lemma by_parameter_ids_spec : forall n d i p x, by_parameter_ids n d (Some p) false i = Ret x -> forall q, x = Some q <-> param_to d p i q.
Proof.
  intros n d i p x H q. unfold by_parameter_ids in H.
  destruct (final_if n d (Some p) is_fun_info) as [f| | |] eqn:F; try discriminate. cbn [bind] in H.
  destruct (final_if_inv _ _ _ _ _ F) as (f' & FT & Ef).
  assert (FUN : forall i l, fun_params i l -> is_fun_info i = true) by (intros ? ? [(t & ->)|(t & ->)]; reflexivity).
  destruct f as [e|].
  2:{ injection H as <-. split; [discriminate|]. intros (e & l & r & FT' & FP & _). assert (f' = Some e) by (eapply final_type_fun; eauto). subst.
      rewrite (FUN _ _ FP) in Ef. discriminate. }
  destruct f' as [e'|]; [|discriminate]. destruct (is_fun_info (e_info (deref d e'))) eqn:A; [|discriminate]. injection Ef as ->.
  assert (FK : final_kind (e_info (deref d e'))) by (intros t q' K; inversion K as [? I|? I|? I|? I|? ? I]; rewrite <- I in A; discriminate).
  assert (FP : fun_params (e_info (deref d e')) (params_of d e')).
  { unfold params_of, fun_params. destruct (e_info (deref d e')); try discriminate; eauto. }
  assert (UNI : forall e l, final_type d (Some p) (Some e) -> fun_params (e_info (deref d e)) l -> l = params_of d e').
  { intros e l T L. assert (Some e = Some e') by (eapply final_type_fun; eauto). assert (e = e') by congruence. subst.
    unfold params_of. destruct L as [(t & L)|(t & L)]; rewrite L; reflexivity. }
  assert (ID : exists id, match id_name i with Some n0 => parameter_name_to_id n d (Some e') n0 | None => Ret (id_num i) end = Ret id /\
       id = match id_name i with Some n0 => name_loop d (params_of d e') n0 0 | None => id_num i end).
  { destruct (id_name i) as [nm|]; [|eauto]. unfold parameter_name_to_id in *.
    destruct (final_if n d (Some e') is_fun_info) as [g| | |] eqn:G; try discriminate. apply final_if_final in G; auto.
    rewrite A in G. subst g. cbn [bind]. eauto. }
  destruct ID as (id & E & ->). rewrite E in H. cbn [bind] in H. clear E.
  assert (PS := pick_step d (params_of d e') i). cbv zeta in PS. revert H PS. 
  set (id := match id_name i with Some n0 => name_loop d (params_of d e') n0 0 | None => id_num i end).
  assert (GO : forall y, (forall q, y = Some q <-> (exists r, picks d (params_of d e') i r /\ q = St r)) -> forall q, y = Some q <-> param_to d p i q).
  { intros y Y q'. rewrite Y. split.
    - intros (r & PK & ->). exists e', (params_of d e'), r. auto.
    - intros (e & l & r & T & L & PK & ->). rewrite (UNI _ _ T L) in PK. eauto. }
  destruct (match id_name i with Some _ => id <? 0 | None => false end).
  - intros H PS. injection H as <-. apply GO; auto.
  - intros H PS. unfold by_parameter_id in H. destruct (final_if n d (Some e') is_fun_info) as [g| | |] eqn:G; try discriminate.
    apply final_if_final in G; auto. rewrite A in G. subst g. cbn [bind] in H. 
    destruct (nth_id (params_of d e') id); injection H as <-; apply GO; auto.
Qed.

(** database *)
Lemma strcmp_eq : forall a b, strcmp a b = Eq -> a = b.
Proof.
  induction a as [|x a IH]; intros [|y b] H; cbn in H; try discriminate; auto.
  destruct (byte_of x ?= byte_of y) eqn:C; try discriminate. apply Z.compare_eq in C. unfold byte_of in C.
  apply N2Z.inj in C. apply (f_equal Ascii.ascii_of_N) in C. rewrite !Ascii.ascii_N_embedding in C. subst. f_equal. auto.
Qed.
Lemma strcmp_lt : forall a b, strcmp a b = Lt -> lex_lt (bytes a) (bytes b).
Proof.
  induction a as [|x a IH]; intros [|y b] H; cbn in H |- *; try discriminate.
  - constructor.
  - fold (byte_of x) (byte_of y). destruct (byte_of x ?= byte_of y) eqn:C; try discriminate.
    + apply Z.compare_eq in C. rewrite C. apply lex_tail. auto.
    + apply lex_head. apply Z.compare_lt_iff. auto.
Qed.
Lemma strcmp_gt : forall a b, strcmp a b = Gt -> lex_lt (bytes b) (bytes a).
Proof.
  induction a as [|x a IH]; intros [|y b] H; cbn in H |- *; try discriminate.
  - constructor.
  - fold (byte_of x) (byte_of y). destruct (byte_of x ?= byte_of y) eqn:C; try discriminate.
    + apply Z.compare_eq in C. rewrite C. apply lex_tail. auto.
    + apply lex_head. apply Z.compare_gt_iff. auto.
Qed.
Lemma lex_trans : forall a b, lex_lt a b -> forall c, lex_lt b c -> lex_lt a c.
Proof.
  intros a b H. induction H; intros c K; inversion K; subst;
    solve [apply lex_nil | apply lex_head; lia | apply lex_tail; auto].
Qed.
Lemma lex_irrefl : forall a, ~ lex_lt a a.
Proof. induction a as [|x a IH]; intros H; inversion H; subst; [lia|auto]. Qed.
Lemma strcmp_refl : forall a, strcmp a a = Eq.
Proof. induction a as [|x a IH]; cbn; auto. rewrite Z.compare_refl. auto. Qed.

Lemma bsearch_spec : forall A (l : list (string * A)) key, sorted l -> forall fuel lo hi,
  0 <= lo -> lo <= hi -> hi <= Z.of_nat (length l) -> hi - lo < Z.of_nat fuel ->
  (forall i v, nth_error l i = Some (key, v) -> lo <= Z.of_nat i < hi) ->
  exists r, bsearch fuel l key lo hi = Ret r /\ forall v, r = Some v <-> In (key, v) l.
Proof.
  intros A l key SO. induction fuel as [|fuel IH]; intros lo hi L0 LH H0 HF IN; [lia|].
  cbn [bsearch]. destruct (Z.ltb_spec lo hi).
  - set (idx := (lo + hi) / 2). assert (BI : lo <= idx < hi) by (unfold idx; split; [apply Z.div_le_lower_bound|apply Z.div_lt_upper_bound]; lia).
    destruct (nth_error l (Z.to_nat idx)) as [[k w]|] eqn:E.
    2:{ apply nth_error_None in E. lia. }
    destruct (strcmp key k) eqn:C.
    + apply strcmp_eq in C. subst k. eexists. split; [reflexivity|]. intros v. split.
      * intros X; injection X as <-. eapply nth_error_In; eauto.
      * intros X. apply In_nth_error in X. destruct X as (j & X). f_equal.
        destruct (Nat.lt_trichotomy j (Z.to_nat idx)) as [O|[O|O]].
        -- exfalso. eapply lex_irrefl. eapply (SO _ _ _ _ O X E).
        -- subst. congruence.
        -- exfalso. eapply lex_irrefl. eapply (SO _ _ _ _ O E X).
    + apply strcmp_lt in C. apply IH; try lia. intros i v X. split; [apply (IN _ _ X)|].
      destruct (Z_lt_dec (Z.of_nat i) idx); auto. exfalso.
      destruct (Nat.eq_dec i (Z.to_nat idx)) as [->|NE]. * assert (k = key) by congruence. subst. eapply lex_irrefl; eauto.
      * assert (O : (Z.to_nat idx < i)%nat) by lia. assert (G := SO _ _ _ _ O E X). cbn in G. eapply lex_irrefl, lex_trans; eauto.
    + apply strcmp_gt in C. apply IH; try lia. intros i v X. split; [|apply (IN _ _ X)].
      destruct (Z_lt_dec idx (Z.of_nat i)); [lia|]. exfalso.
      destruct (Nat.eq_dec i (Z.to_nat idx)) as [->|NE]. * assert (k = key) by congruence. subst. eapply lex_irrefl; eauto.
      * assert (O : (i < Z.to_nat idx)%nat) by lia. assert (G := SO _ _ _ _ O X E). cbn in G. eapply lex_irrefl, lex_trans; eauto.
  - eexists. split; [reflexivity|]. intros v. split; [discriminate|]. intros X. apply In_nth_error in X. destruct X as (j & X).
    apply IN in X. lia.
Qed.
Lemma bsearch_all_spec : forall A (l : list (string * A)) key, sorted l ->
  exists r, bsearch_all l key = Ret r /\ forall v, r = Some v <-> In (key, v) l.
Proof.
  intros A l key SO. apply bsearch_spec; auto; try lia. intros i v X. assert (nth_error l i <> None) by congruence.
  apply nth_error_Some in H. lia.
Qed.
Lemma entry_db_spec : forall edb file loc name, sorted_db edb ->
  exists r, entry_from_entry_db edb file loc name = Ret r /\ forall x, r = Some x <-> stored edb file loc name [x].
Proof.
  intros edb file loc name (S1 & S2). unfold entry_from_entry_db, stored.
  destruct (bsearch_all_spec _ edb file S1) as (rf & -> & F). cbn [bind]. destruct rf as [locs|].
  2:{ exists None. split; auto. intros x. split; [discriminate|]. intros (locs & names & I & _). apply F in I. discriminate. }
  assert (FI : In (file, locs) edb) by (apply F; auto). destruct (S2 _ _ FI) as (S3 & S4).
  assert (FU : forall locs', In (file, locs') edb -> locs' = locs) by (intros l' I; apply F in I; congruence).
  destruct (bsearch_all_spec _ locs loc S3) as (rl & -> & L). cbn [bind]. destruct rl as [names|].
  2:{ exists None. split; auto. intros x. split; [discriminate|]. intros (locs' & names & I & I2 & _). rewrite (FU _ I) in I2. apply L in I2. discriminate. }
  assert (LI : In (loc, names) locs) by (apply L; auto).
  assert (LU : forall n', In (loc, n') locs -> n' = names) by (intros l' I; apply L in I; congruence).
  destruct (bsearch_all_spec _ names name (S4 _ _ LI)) as (rn & -> & N). cbn [bind].
  assert (G : forall x, (exists locs0 names0, In (file, locs0) edb /\ In (loc, names0) locs0 /\ In (name, [x]) names0) <-> rn = Some [x]).
  { intros x. rewrite N. split.
    - intros (l' & n' & I1 & I2 & I3). rewrite (FU _ I1) in I2. rewrite (LU _ I2) in I3. auto.
    - eauto. }
  destruct rn as [[|x [|y r]]|]; eexists; (split; [reflexivity|]); intros x0; rewrite G; split; intros K; try discriminate; congruence.
Qed.
Lemma entry_db_unique : forall edb file loc name l l', sorted_db edb ->
  stored edb file loc name l -> stored edb file loc name l' -> l = l'.
Proof.
  intros edb file loc name l l' (S1 & S2) (a & b & A1 & A2 & A3) (a' & b' & B1 & B2 & B3).
  assert (U : forall X (k : list (string * X)) key, sorted k -> forall v v', In (key, v) k -> In (key, v') k -> v = v').
  { intros X k key SO v v' I I'. destruct (bsearch_all_spec _ k key SO) as (r & _ & R). apply R in I, I'. congruence. }
  destruct (S2 _ _ A1) as (S3 & S4). assert (a = a') by (eapply U; eauto). subst.
  assert (b = b') by (eapply U; eauto). subst. eapply U; eauto.
Qed.
