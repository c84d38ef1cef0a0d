(** The theorems about the texts of calls. *)
From Coq Require Import ZArith String Ascii List Bool Lia ZifyBool.
From Verif Require Import Base BaseProof EntryModel EntrySpec ValueModel DeepModel DeepSpec DeepProof2 CdeclModel HandlerModel TextModel TextSpec TextProof3 TextProof4 CallModel CallSpec CallProof CallProof2 CallProof3.
From Verif Require CdeclSpec CdeclProof3.
Import ListNotations.
Open Scope Z_scope.
Local Open Scope string_scope.

Lemma call_reads_back : forall E tagged deep ft loads n0 m v c, readable_db E n0 -> bytes_ok m -> shows_call E tagged deep ft loads m v c -> call_readable c ->
  exists s, says_call s c /\ CdeclSpec.returns (fun k => call_string E tagged deep ft loads k m (Some v)) (Some s).
Proof.
  intros E tagged deep ft loads n0 m v c [A N G B] M S R. destruct (call_complete E tagged deep ft loads n0 A N m M G B v c S R) as (s & k0 & P & K).
  exists s. split; [apply call_back; assumption|]. exact (call_returns E tagged deep ft loads m [] v k0 (Some s) K).
Qed.
Lemma call_string_sound : forall E tagged deep ft loads n0 m v k s, printable_db E ft n0 -> bytes_ok m -> call_ok E tagged deep loads m v ->
  call_string E tagged deep ft loads k m (Some v) = Ret (Some s) -> exists c, shows_call E tagged deep ft loads m v c /\ (call_readable c -> says_call s c).
Proof. intros E tagged deep ft loads n0 m v k s [[A N G B] CL FT HD] M OK H. exact (call_sound E tagged deep ft loads n0 A N m M G CL FT v k s OK H). Qed.
Lemma call_any : forall E tagged deep ft loads m v k s s', CdeclSpec.returns (fun k => call_string E tagged deep ft loads k m (Some v)) s ->
  call_string E tagged deep ft loads k m (Some v) = Ret s' -> s' = s.
Proof. intros E tagged deep ft loads m v k s s' [R _] H. destruct (R k); congruence. Qed.
Lemma call_injective : forall E E' tagged tagged' deep deep' ft ft' loads loads' n0 n0' m m' v v' c c' k k' s,
  readable_db E n0 -> readable_db E' n0' -> bytes_ok m -> bytes_ok m' ->
  shows_call E tagged deep ft loads m v c -> call_readable c -> shows_call E' tagged' deep' ft' loads' m' v' c' -> call_readable c' ->
  call_string E tagged deep ft loads k m (Some v) = Ret (Some s) -> call_string E' tagged' deep' ft' loads' k' m' (Some v') = Ret (Some s) -> c = c'.
Proof.
  intros E E' tagged tagged' deep deep' ft ft' loads loads' n0 n0' m m' v v' c c' k k' s D D' M M' S R S' R' H H'.
  destruct (call_reads_back _ _ _ _ _ _ _ _ _ D M S R) as (t & T & X). destruct (call_reads_back _ _ _ _ _ _ _ _ _ D' M' S' R') as (t' & T' & X').
  apply (call_any _ _ _ _ _ _ _ _ _ _ X) in H. apply (call_any _ _ _ _ _ _ _ _ _ _ X') in H'. injection H as <-. injection H' as <-. exact (says_call_fun _ _ _ T T').
Qed.
Lemma shows_call_fun : forall E tagged deep ft loads n0 m v c c', readable_db E n0 -> bytes_ok m -> shows_call E tagged deep ft loads m v c -> call_readable c ->
  shows_call E tagged deep ft loads m v c' -> call_readable c' -> c = c'.
Proof.
  intros E tagged deep ft loads n0 m v c c' D M S R S' R'. destruct (call_reads_back _ _ _ _ _ _ _ _ _ D M S R) as (t & T & X). destruct (call_reads_back _ _ _ _ _ _ _ _ _ D M S' R') as (t' & T' & X').
  pose proof (CdeclProof3.returns_fun _ _ _ _ X X') as Q. injection Q as <-. exact (says_call_fun _ _ _ T T').
Qed.
Lemma call_string_result : forall E tagged deep ft loads n0 n1 m v, printable_db E ft n0 -> finite_types (en_db E) n0 -> finite_texts (en_db E) n1 -> tame E -> bytes_ok m ->
  call_ok E tagged deep loads m v -> calm_call E tagged deep loads m v -> exists o, CdeclSpec.returns (fun k => call_string E tagged deep ft loads k m (Some v)) o.
Proof. intros E tagged deep ft loads n0 n1 m v [[A N G B] CL FT HD] FN FX T M OK CA. exact (call_result E tagged deep ft loads n0 A N m M G B CL FT n1 FN FX T HD v OK CA). Qed.
(** an item without text *)
Lemma no_text : forall E tagged deep ft loads n0 m v w k s, readable_db E n0 -> function_value E v -> In w (loads (v_addr v)) ->
  (forall k s, call_text E tagged deep ft loads k m [v] w <> Ret (Some s)) \/ v_addr w = 0 -> call_string E tagged deep ft loads k m (Some v) <> Ret (Some s).
Proof.
  intros E tagged deep ft loads n0 m v w k s [A N _ _] [(t & ps & FI) NP] IW NS H. cbn [call_string] in H. destruct k as [|k]; [discriminate|]. cbn [call_text] in H.
  apply bind_ret in H. destruct H as [c [C H]].
  assert (X : exists c', c = Some c') by (destruct FI as [I|I]; rewrite (load_by_type E n0 A N v _ k I NP) in C; injection C as <-; eexists; reflexivity). destruct X as [c' ->].
  destruct (existsb _ _) eqn:AD; [discriminate|]. apply all_addresses in AD. rewrite Forall_forall in AD. destruct NS as [NS|Z0]; [|exact (AD w IW Z0)].
  apply bind_ret in H. destruct H as [rs [CO H]]. apply bind_ret in H. destruct H as [o [O H]]. destruct o as [o|]; [|discriminate].
  apply collect_ret in CO. assert (LN : length (map v_entry (loads (v_addr v))) = length rs) by (rewrite map_length; eapply Forall2_len; exact CO).
  destruct (args_inv _ _ _ _ _ _ _ LN O) as [ts ->]. clear - CO IW NS. remember (map Some ts) as rs eqn:Q. revert ts Q IW. induction CO as [|x r l rs X CO IH]; intros ts Q IW; [destruct IW|].
  destruct ts as [|t ts]; [discriminate|]. injection Q as -> Q. destruct IW as [->|IW]; [exact (NS _ _ X)|exact (IH ts Q IW)].
Qed.
Lemma empty_ellipsis : forall E tagged deep ft loads n0 m v w k s, readable_db E n0 -> function_value E v -> In w (loads (v_addr v)) -> ellipsis E w -> loads (v_addr w) = [] ->
  call_string E tagged deep ft loads k m (Some v) <> Ret (Some s).
Proof.
  intros E tagged deep ft loads n0 m v w k s D F IW EL Z0. eapply no_text; [exact D|exact F|exact IW|]. left. clear k s. intros k s H. destruct D as [A N _ _]. destruct k as [|k]; [discriminate|]. cbn [call_text] in H.
  rewrite (load_ellipsis E n0 A N w k EL) in H. cbn [bind] in H. rewrite Z0 in H. cbn [existsb collect bind map combine args_text] in H. destruct EL as [t I]. unfold call_end, is_va_list in H. rewrite I in H. discriminate.
Qed.
Lemma no_address : forall E tagged deep ft loads n0 m v w k s, readable_db E n0 -> function_value E v -> In w (loads (v_addr v)) -> v_addr w = 0 ->
  call_string E tagged deep ft loads k m (Some v) <> Ret (Some s).
Proof. intros E tagged deep ft loads n0 m v w k s D F IW Z0. eapply no_text; [exact D|exact F|exact IW|]. right. exact Z0. Qed.
(** a value without parameter loads has its usual text *)
Lemma simple_same : forall E tagged deep ft loads n0 m v o, readable_db E n0 -> simple E v ->
  CdeclSpec.returns (fun k => value_string_ex E tagged deep ft k m (Some v)) o -> CdeclSpec.returns (fun k => call_string E tagged deep ft loads k m (Some v)) o.
Proof.
  intros E tagged deep ft loads n0 m v o [A N _ _] SI [_ [k0 K0]]. destruct (load_simple E n0 A N v SI) as [k1 K1]. apply (call_returns E tagged deep ft loads m [] v (S (k0 + k1))).
  intros [|k] K; [lia|]. cbn [call_text]. rewrite (K1 k) by lia. cbn [bind]. apply (K0 k). lia.
Qed.
