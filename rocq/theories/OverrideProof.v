(** Merged settings (C65): proofs. *)
From Coq Require Import ZArith String List Bool Lia.
From Verif Require Import Base OverrideModel OverrideSpec.
Import ListNotations.

Section Tree_ind.
Variable P : tree -> Prop.
Hypothesis HL : forall x, P (Leaf x).
Hypothesis HT : forall l, Forall (fun '(_, t) => P t) l -> P (Table l).
Fixpoint tree_ind' (t : tree) : P t :=
  match t with
  | Leaf x => HL x
  | Table l => HT l ((fix go (l : list (string * tree)) : Forall (fun '(_, t) => P t) l :=
      match l with [] => Forall_nil _ | (k, t) :: r => Forall_cons (k, t) (tree_ind' t) (go r) end) l)
  end.
End Tree_ind.

Lemma find_get : forall k l, (match List.find (fun '(j, _) => String.eqb j k) l with Some (_, u) => Some u | None => None end) = get k l.
Proof. intros k l. induction l as [|[j t] l IH]; cbn; [reflexivity|]. destruct (String.eqb j k); [reflexivity|assumption]. Qed.
Lemma lookup_cons : forall l k p, lookup (Table l) (k :: p) = match get k l with Some u => lookup u p | None => None end.
Proof. intros l k p. cbn. rewrite <- find_get. destruct (List.find _ l) as [[j u]|]; reflexivity. Qed.
Lemma get_set : forall k j t l, get j (set k t l) = if String.eqb k j then Some t else get j l.
Proof.
  intros k j t l. induction l as [|[i u] l IH]; cbn; [reflexivity|]. destruct (String.eqb i k) eqn:E; cbn.
  - apply String.eqb_eq in E. subst. destruct (String.eqb k j); reflexivity.
  - destruct (String.eqb i j) eqn:E2; [|assumption]. apply String.eqb_eq in E2. subst. rewrite String.eqb_sym in E. rewrite E. reflexivity.
Qed.
Lemma get_in : forall k l t, get k l = Some t -> In (k, t) l.
Proof. intros k l t. induction l as [|[j u] l IH]; cbn; [discriminate|]. destruct (String.eqb j k) eqn:E; [|auto]. apply String.eqb_eq in E. subst. intros X. injection X as ->. auto. Qed.
Lemma get_none : forall k l, get k l = None <-> ~ In k (map fst l).
Proof.
  intros k l. induction l as [|[j u] l IH]; cbn; [tauto|]. destruct (String.eqb j k) eqn:E.
  - apply String.eqb_eq in E. subst. split; [discriminate|tauto].
  - apply String.eqb_neq in E. rewrite IH. tauto.
Qed.

(** what the loops do to one key *)
Definition combine_at (dv val : option tree) : option tree :=
  match dv, val with
  | Some (Table d), Some (Table s) => Some (Table (merge_tables true (Table s) d))
  | Some x, _ => Some x
  | None, y => y
  end.
Definition go_tables : table -> table -> table :=
  fix go (l : table) (dst : table) : table :=
    match l with
    | [] => dst
    | (key, val) :: r =>
      go r (match get key dst with
            | Some dv =>
              if negb true && isnil dv then remove key dst
              else if istable val then match dv with Table d => set key (Table (merge_tables true val d)) dst | Leaf _ => dst end
              else dst
            | None => set key val dst
            end)
    end.
Lemma merge_tables_eq : forall l dst, merge_tables true (Table l) dst = go_tables l dst.
Proof. reflexivity. Qed.
Lemma go_get : forall l dst k, NoDup (map fst l) -> get k (go_tables l dst) = combine_at (get k dst) (get k l).
Proof.
  intros l. induction l as [|[key val] l IH]; intros dst k D; cbn [go_tables]; fold go_tables.
  - cbn. unfold combine_at. destruct (get k dst) as [[x|d]|]; reflexivity.
  - cbn in D. inversion D as [|? ? N D']; subst. rewrite (IH _ _ D'). cbn [get negb andb]. apply get_none in N. destruct (String.eqb key k) eqn:E.
    + apply String.eqb_eq in E. subst key. rewrite N. destruct (get k dst) as [[x|d]|] eqn:G.
      * destruct val; cbn [istable]; rewrite G; reflexivity.
      * destruct val as [x|s]; cbn [istable]; [rewrite G; reflexivity|]. rewrite get_set, String.eqb_refl. reflexivity.
      * rewrite get_set, String.eqb_refl. cbn. destruct val; reflexivity.
    + destruct (get key dst) as [[x|d]|] eqn:G.
      * destruct val; reflexivity.
      * destruct val as [x|s]; cbn [istable]; [reflexivity|]. rewrite get_set, E. reflexivity.
      * rewrite get_set, E. reflexivity.
Qed.
Lemma merge_top_eq : forall vc v, merge_top true vc v = go_tables vc v.
Proof.
  intros vc. induction vc as [|[key val] vc IH]; intros v; cbn [merge_top go_tables]; [reflexivity|]. fold go_tables. rewrite IH. f_equal. cbn [negb andb]. destruct (get key v) as [[x|d]|]; [|destruct val; reflexivity|reflexivity].
  cbn [istable]. destruct x; destruct val; reflexivity.
Qed.
Lemma tables_get : forall l d k, NoDup (map fst l) -> get k (merge_tables true (Table l) d) = combine_at (get k d) (get k l).
Proof. intros. rewrite merge_tables_eq. apply go_get. assumption. Qed.
Lemma merge_get : forall lo hi k, NoDup (map fst lo) -> get k (merge lo hi) = combine_at (get k hi) (get k lo).
Proof. intros. unfold merge. rewrite merge_top_eq. apply go_get. assumption. Qed.

(** * Keys stay different *)
Lemma set_keys : forall k t l, map fst (set k t l) = if existsb (String.eqb k) (map fst l) then map fst l else map fst l ++ [k].
Proof.
  intros k t l. induction l as [|[j u] l IH]; cbn; [reflexivity|]. rewrite (String.eqb_sym k j). destruct (String.eqb j k) eqn:E; cbn; [reflexivity|]. rewrite IH. destruct (existsb _ _); reflexivity.
Qed.
Lemma set_nodup : forall k t l, NoDup (map fst l) -> NoDup (map fst (set k t l)).
Proof.
  intros k t l D. rewrite set_keys. destruct (existsb _ _) eqn:E; [assumption|]. apply NoDup_rev in D. rewrite <- (rev_involutive (map fst l ++ [k])). apply NoDup_rev. rewrite rev_app_distr. cbn. constructor; [|assumption].
  rewrite <- in_rev. intros I. assert (X : existsb (String.eqb k) (map fst l) = true) by (apply existsb_exists; exists k; split; [assumption|apply String.eqb_refl]). congruence.
Qed.
Lemma set_forall : forall (Q : tree -> Prop) k t l, Forall (fun '(_, u) => Q u) l -> Q t -> Forall (fun '(_, u) => Q u) (set k t l).
Proof. intros Q k t l F T. induction F as [|[j u] l U F IH]; cbn; [constructor; auto|]. destruct (String.eqb j k); constructor; auto. Qed.
Lemma forall_get : forall (Q : tree -> Prop) k l t, Forall (fun '(_, u) => Q u) l -> get k l = Some t -> Q t.
Proof. intros Q k l t F G. apply get_in in G. rewrite Forall_forall in F. exact (F _ G). Qed.
Lemma proper_table : forall l, proper (Table l) <-> NoDup (map fst l) /\ Forall (fun '(_, t) => proper t) l.
Proof.
  intros l. split.
  - intros P. inversion P as [|? A B]; subst. split; [assumption|]. apply Forall_forall. intros [k t] I. exact (B k t I).
  - intros [A B]. constructor; [assumption|]. intros k t I. rewrite Forall_forall in B. exact (B _ I).
Qed.
Lemma go_proper : forall l, (forall k s d, In (k, Table s) l -> proper (Table d) -> proper (Table (merge_tables true (Table s) d))) -> Forall (fun '(_, t) => proper t) l ->
  forall d, proper (Table d) -> proper (Table (go_tables l d)).
Proof.
  intros l H F. induction F as [|[key val] l V F IH]; intros d D; cbn [go_tables]; [assumption|]. fold go_tables. apply IH; [intros k s d' I; apply (H k); right; assumption|]. cbn [negb andb].
  pose proof (proj1 (proper_table d) D) as [D1 D2]. destruct (get key d) as [[x|d1]|] eqn:G.
  - destruct (istable val); assumption.
  - destruct val as [x|s]; cbn [istable]; [assumption|]. apply proper_table; split; [apply set_nodup; assumption|apply set_forall; [assumption|]]. apply (H key); [left; reflexivity|]. exact (forall_get _ _ _ _ D2 G).
  - apply proper_table; split; [apply set_nodup; assumption|apply set_forall; assumption].
Qed.
Lemma tables_proper : forall src, proper src -> forall d, proper (Table d) -> proper (Table (merge_tables true src d)).
Proof.
  intros src. induction src as [x|l IH] using tree_ind'; intros P d D; [assumption|]. pose proof (proj1 (proper_table l) P) as [P1 P2]. rewrite merge_tables_eq. apply go_proper; [|assumption|assumption].
  intros k s d' I. rewrite Forall_forall in IH, P2. apply (IH _ I). exact (P2 _ I).
Qed.
Lemma merge_proper : forall lo hi, proper (Table lo) -> proper (Table hi) -> proper (Table (merge lo hi)).
Proof. intros lo hi L H. unfold merge. rewrite merge_top_eq, <- merge_tables_eq. apply tables_proper; assumption. Qed.

(** * Lookups *)
Lemma open_cons : forall l k p, open_to (Table l) (k :: p) <-> (forall u, get k l = Some u -> open_to u p).
Proof.
  intros l k p. split.
  - intros O u G q r x E L. apply (O (k :: q) r x); [cbn; congruence|]. unfold leaf_at. rewrite lookup_cons, G. assumption.
  - intros H q r x E L. unfold leaf_at in L. destruct q as [|j q]; [discriminate|]. injection E as <- ->. rewrite lookup_cons in L. destruct (get k l) as [u|] eqn:G; [|discriminate]. exact (H u eq_refl q r x eq_refl L).
Qed.
Lemma open_nil : forall t, open_to t [] <-> exists l, t = Table l.
Proof.
  intros t. split.
  - intros O. destruct t as [x|l]; [|eauto]. exfalso. apply (O [] [] x eq_refl). reflexivity.
  - intros [l ->] q r x E L. destruct q; [|discriminate]. discriminate.
Qed.
Lemma leaf_tables : forall src, proper src -> forall s, src = Table s -> forall d p x,
  leaf_at (Table (merge_tables true src d)) p x <-> (leaf_at (Table d) p x \/ (leaf_at src p x /\ silent (Table d) p)).
Proof.
  intros src. induction src as [y|l IH] using tree_ind'; intros P s E d p x; [discriminate|]. clear s E. pose proof (proj1 (proper_table l) P) as [P1 P2]. destruct p as [|k p].
  { unfold leaf_at. cbn. split; [discriminate|]. intros [X|[X _]]; discriminate. }
  unfold leaf_at at 1 2 3. rewrite !lookup_cons, (tables_get _ _ _ P1). unfold silent. rewrite lookup_cons, open_cons.
  destruct (get k d) as [[y|d1]|] eqn:Gd; cbn [combine_at].
  - split; [auto|]. intros [X|[X [Y1 Y2]]]; [assumption|]. exfalso. specialize (Y2 _ eq_refl). apply (Y2 [] p y eq_refl). reflexivity.
  - destruct (get k l) as [[y|s1]|] eqn:Gl.
    + split; [auto|]. intros [X|[X [Y1 Y2]]]; [assumption|]. destruct p; [|discriminate]. discriminate.
    + rewrite Forall_forall in IH, P2. pose proof (get_in _ _ _ Gl) as I. specialize (IH _ I (P2 _ I) s1 eq_refl d1 p x). unfold leaf_at in IH. rewrite IH. unfold silent. split.
      * intros [X|[X [Y1 Y2]]]; [auto|]. right. split; [assumption|]. split; [assumption|]. intros u U. injection U as <-. assumption.
      * intros [X|[X [Y1 Y2]]]; [auto|]. right. split; [assumption|]. split; [assumption|]. exact (Y2 _ eq_refl).
    + split; [auto|]. intros [X|[X _]]; [assumption|discriminate].
  - split; [|intros [X|[X _]]; [discriminate|assumption]]. intros X. right. split; [assumption|]. split; [reflexivity|]. discriminate.
Qed.
Lemma table_tables : forall src, proper src -> forall s, src = Table s -> forall d p,
  table_at (Table (merge_tables true src d)) p <-> (table_at (Table d) p \/ (table_at src p /\ open_to (Table d) p)).
Proof.
  intros src. induction src as [y|l IH] using tree_ind'; intros P s E d p; [discriminate|]. clear s E. pose proof (proj1 (proper_table l) P) as [P1 P2]. destruct p as [|k p].
  { split; [intros _; left; exists d; reflexivity|]. intros _. eexists. reflexivity. }
  unfold table_at at 1 2 3. rewrite !lookup_cons, (tables_get _ _ _ P1). rewrite open_cons. destruct (get k d) as [[y|d1]|] eqn:Gd; cbn [combine_at].
  - split; [auto|]. intros [X|[X Y]]; [assumption|]. exfalso. specialize (Y _ eq_refl). apply (Y [] p y eq_refl). reflexivity.
  - destruct (get k l) as [[y|s1]|] eqn:Gl.
    + split; [auto|]. intros [X|[X _]]; [assumption|]. destruct X as [z X]. destruct p; discriminate.
    + rewrite Forall_forall in IH, P2. pose proof (get_in _ _ _ Gl) as I. specialize (IH _ I (P2 _ I) s1 eq_refl d1 p). unfold table_at in IH. rewrite IH. split.
      * intros [X|[X Y]]; [auto|]. right. split; [assumption|]. intros u U. injection U as <-. assumption.
      * intros [X|[X Y]]; [auto|]. right. split; [assumption|]. exact (Y _ eq_refl).
    + split; [auto|]. intros [X|[[z X] _]]; [assumption|discriminate].
  - split; [|intros [[z X]|[X _]]; [discriminate|assumption]]. intros X. right. split; [assumption|discriminate].
Qed.
Lemma merge_leaf : forall lo hi, proper (Table lo) -> forall p x, leaf_at (Table (merge lo hi)) p x <-> (leaf_at (Table hi) p x \/ (leaf_at (Table lo) p x /\ silent (Table hi) p)).
Proof. intros lo hi P p x. unfold merge. rewrite merge_top_eq, <- merge_tables_eq. exact (leaf_tables _ P lo eq_refl hi p x). Qed.
Lemma merge_table : forall lo hi, proper (Table lo) -> forall p, table_at (Table (merge lo hi)) p <-> (table_at (Table hi) p \/ (table_at (Table lo) p /\ open_to (Table hi) p)).
Proof. intros lo hi P p. unfold merge. rewrite merge_top_eq, <- merge_tables_eq. exact (table_tables _ P lo eq_refl hi p). Qed.

(** * Several overrides *)
Theorem all_ok : forall parse, (forall o t, parse o = Parsed (Some t) -> proper (Table t)) -> forall os lo, proper (Table lo) ->
  match merge_all parse lo os with
  | Failed => exists o, In o os /\ parse o = Bad
  | Panic => exists o, In o os /\ parse o = Parsed None
  | Merged r => exists ts, map parse os = map Parsed ts /\ proper (Table r) /\
      (forall p x, leaf_at (Table r) p x <-> exists before t after, Some lo :: ts = before ++ t :: after /\ leaf_at (tree_of t) p x /\ Forall (fun u => silent (tree_of u) p) after) /\
      (forall p, table_at (Table r) p <-> exists before t after, Some lo :: ts = before ++ t :: after /\ table_at (tree_of t) p /\ Forall (fun u => open_to (tree_of u) p) after)
  end.
Proof.
  intros parse Ps os. induction os as [|o os IH]; intros lo P; cbn [merge_all].
  { exists []. split; [reflexivity|]. split; [assumption|]. split.
    - intros p x. split; [intros L; exists [], (Some lo), []; auto|]. intros [b [t [a [E [L _]]]]]. destruct b as [|? b]; [injection E as <- <-; assumption|]. injection E as _ E. destruct b; discriminate.
    - intros p. split; [intros L; exists [], (Some lo), []; auto|]. intros [b [t [a [E [L _]]]]]. destruct b as [|? b]; [injection E as <- <-; assumption|]. injection E as _ E. destruct b; discriminate. }
  destruct (parse o) as [|m] eqn:Po; [exists o; split; [left; reflexivity|assumption]|].
  assert (G : forall t, proper (Table t) -> tree_of m = Table t -> match merge_all parse (merge lo t) os with
    | Failed => exists o', In o' (o :: os) /\ parse o' = Bad
    | Panic => exists o', In o' (o :: os) /\ parse o' = Parsed None
    | Merged r => exists ts, map parse (o :: os) = map Parsed ts /\ proper (Table r) /\
      (forall p x, leaf_at (Table r) p x <-> exists before t after, Some lo :: ts = before ++ t :: after /\ leaf_at (tree_of t) p x /\ Forall (fun u => silent (tree_of u) p) after) /\
      (forall p, table_at (Table r) p <-> exists before t after, Some lo :: ts = before ++ t :: after /\ table_at (tree_of t) p /\ Forall (fun u => open_to (tree_of u) p) after)
    end).
  { intros t Pt Em. pose proof (merge_proper lo t P Pt) as Pm. specialize (IH (merge lo t) Pm). destruct (merge_all parse (merge lo t) os) as [| |r].
    1,2: destruct IH as [o' [I N]]; exists o'; split; [right; assumption|assumption].
    destruct IH as [ts [Ems [Pr [Lf Tb]]]]. exists (m :: ts). split; [cbn; congruence|]. split; [assumption|]. split.
    - intros p x. rewrite Lf. split.
      + intros [b [u [a [E [L F]]]]]. destruct b as [|? b].
        * injection E as <- <-. cbn [tree_of] in L. apply merge_leaf in L; [|assumption]. destruct L as [L|[L Si]]; [exists [Some lo], m, ts; rewrite Em; auto|]. exists [], (Some lo), (m :: ts). split; [reflexivity|]. split; [assumption|constructor; [rewrite Em|]; assumption].
        * injection E as <- E. exists (Some lo :: m :: b), u, a. split; [cbn; rewrite E; reflexivity|auto].
      + intros [b [u [a [E [L F]]]]]. destruct b as [|? b]; [|destruct b as [|? b]].
        * injection E as <- <-. inversion F as [|? ? F1 F2]; subst. rewrite Em in F1. exists [], (Some (merge lo t)), ts. split; [reflexivity|]. split; [|assumption]. apply merge_leaf; auto.
        * injection E as <- <- <-. rewrite Em in L. exists [], (Some (merge lo t)), ts. split; [reflexivity|]. split; [|assumption]. apply merge_leaf; auto.
        * injection E as <- <- E. exists (Some (merge lo t) :: b), u, a. split; [cbn; rewrite E; reflexivity|auto].
    - intros p. rewrite Tb. split.
      + intros [b [u [a [E [L F]]]]]. destruct b as [|? b].
        * injection E as <- <-. cbn [tree_of] in L. apply merge_table in L; [|assumption]. destruct L as [L|[L Si]]; [exists [Some lo], m, ts; rewrite Em; auto|]. exists [], (Some lo), (m :: ts). split; [reflexivity|]. split; [assumption|constructor; [rewrite Em|]; assumption].
        * injection E as <- E. exists (Some lo :: m :: b), u, a. split; [cbn; rewrite E; reflexivity|auto].
      + intros [b [u [a [E [L F]]]]]. destruct b as [|? b]; [|destruct b as [|? b]].
        * injection E as <- <-. inversion F as [|? ? F1 F2]; subst. rewrite Em in F1. exists [], (Some (merge lo t)), ts. split; [reflexivity|]. split; [|assumption]. apply merge_table; auto.
        * injection E as <- <- <-. rewrite Em in L. exists [], (Some (merge lo t)), ts. split; [reflexivity|]. split; [|assumption]. apply merge_table; auto.
        * injection E as <- <- E. exists (Some (merge lo t) :: b), u, a. split; [cbn; rewrite E; reflexivity|auto]. }
  destruct m as [t|]; [exact (G t (Ps _ _ Po) eq_refl)|]. destruct lo as [|e lo]; [|exists o; split; [left; reflexivity|assumption]].
  apply (G []); [constructor; [constructor|intros ? ? []]|reflexivity].
Qed.

(** * The order of the keys *)
Lemma lookup_none : forall t p, lookup t p = None <-> (forall x, ~ leaf_at t p x) /\ ~ table_at t p.
Proof.
  intros t p. unfold leaf_at, table_at. split.
  - intros E. rewrite E. split; [discriminate|]. intros [l X]. discriminate.
  - intros [A B]. destruct (lookup t p) as [[x|l]|]; [destruct (A x eq_refl)|destruct B; eauto|reflexivity].
Qed.
Lemma alike_open : forall t u p, alike t u -> open_to t p -> open_to u p.
Proof. intros t u p A O q r x E L. apply (O q r x E). apply (A q). assumption. Qed.
Lemma alike_sym : forall t u, alike t u -> alike u t.
Proof. intros t u A p. destruct (A p) as [B C]. split; [intros x; symmetry; apply B|symmetry; assumption]. Qed.
Lemma alike_silent : forall t u p, alike t u -> silent t p -> silent u p.
Proof.
  intros t u p A [N O]. split; [|exact (alike_open t u p A O)]. apply lookup_none in N. destruct N as [N1 N2]. apply lookup_none. split.
  - intros x L. apply (N1 x). apply (A p). assumption.
  - intros L. apply N2. apply (A p). assumption.
Qed.
Theorem merge_alike : forall lo hi lo' hi', proper (Table lo) -> proper (Table lo') -> alike (Table lo) (Table lo') -> alike (Table hi) (Table hi') -> alike (Table (merge lo hi)) (Table (merge lo' hi')).
Proof.
  assert (H : forall lo hi lo' hi', proper (Table lo) -> proper (Table lo') -> alike (Table lo) (Table lo') -> alike (Table hi) (Table hi') ->
    forall p, (forall x, leaf_at (Table (merge lo hi)) p x -> leaf_at (Table (merge lo' hi')) p x) /\ (table_at (Table (merge lo hi)) p -> table_at (Table (merge lo' hi')) p)).
  { intros lo hi lo' hi' P P' A B p. split.
    - intros x L. apply merge_leaf in L; [|assumption]. apply merge_leaf; [assumption|]. destruct L as [L|[L Si]]; [left; apply (B p); assumption|]. right. split; [apply (A p); assumption|]. exact (alike_silent _ _ _ B Si).
    - intros L. apply merge_table in L; [|assumption]. apply merge_table; [assumption|]. destruct L as [L|[L Si]]; [left; apply (B p); assumption|]. right. split; [apply (A p); assumption|]. exact (alike_open _ _ _ B Si). }
  intros lo hi lo' hi' P P' A B p. destruct (H lo hi lo' hi' P P' A B p) as [X Y]. destruct (H lo' hi' lo hi P' P (alike_sym _ _ A) (alike_sym _ _ B) p) as [X' Y']. split; [intros x; split; auto|split; auto].
Qed.
