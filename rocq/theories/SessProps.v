(** C45, C51: sessions of the file manager. *)
From Verif Require Import ItrModel UtilModel UtilSpec UtilProofs SessModel SessSpec SessProofs.
Local Open Scope Z_scope.

(** The states a manager reaches: with [slots] slots in the tracker, a limit of [bytes] bytes,
    [ns] sessions and at most [mf] files. *)
Definition reachable (slots : nat) (bytes : Z) (ns : nat) (mf : Z) (s : fm) : Prop :=
  exists l, calls (fm_new slots bytes ns mf) l s.

Lemma reach_inv slots bytes ns mf s : (0 < slots)%nat -> (0 < ns)%nat -> reachable slots bytes ns mf s -> SInv slots bytes ns s /\ last_ok s.
Proof.
  intros H1 H2 [l H]. eapply calls_inv; eauto; [apply sess_new|]. unfold last_ok. cbn. now rewrite repeat_length.
Qed.

(** A session that is handed out was not in use, is in use afterwards, and none is handed out
    exactly if all sessions are in use. *)
Theorem C45_open : forall slots bytes ns mf s s' r, (0 < slots)%nat -> (0 < ns)%nat -> reachable slots bytes ns mf s ->
  new_session s = (s', r) ->
  match r with
  | Some k => (k < ns)%nat /\ ~ in_use s k /\ in_use s' k
  | None => forall k, (k < ns)%nat -> in_use s k
  end.
Proof.
  intros slots bytes ns mf s s' r H1 H2 Hr E. destruct (reach_inv _ _ _ _ _ H1 H2 Hr) as [HI Hl].
  destruct (new_session_inv _ _ _ _ _ _ H2 HI Hl E) as (A1 & _ & _ & _ & A5). destruct r as [k|].
  - destruct A5 as [A5 A6]. assert (Hk : (k < length (f_sess s))%nat) by (apply nth_error_Some; congruence). rewrite (si_len _ _ _ _ HI) in Hk. split; auto. split.
    + intros (v & Hv & Hf). congruence.
    + exists EMPTY. rewrite A6, sset_nth, Nat.eqb_refl by (rewrite (si_len _ _ _ _ HI); auto). split; auto. discriminate.
  - destruct A5 as [_ A5]. intros k Hk. rewrite <- (si_len _ _ _ _ HI) in Hk. exists (nth k (f_sess s) 0). pose proof (nth_err _ _ 0 Hk) as E1. split; auto. apply (A5 k); auto.
Qed.
Print Assumptions C45_open.

(** A session stays in use until it is closed, whatever is called. *)
Theorem C45_exclusive : forall slots bytes ns mf s k l s1, (0 < slots)%nat -> (0 < ns)%nat -> reachable slots bytes ns mf s ->
  in_use s k -> calls s l s1 -> ~ In (CloseSession k) l -> in_use s1 k /\ snd (new_session s1) <> Some k.
Proof.
  intros slots bytes ns mf s k l s1 H1 H2 Hr Hu Hc Hn.
  assert (Hr1 : reachable slots bytes ns mf s1).
  { destruct Hr as [l0 Hr]. exists (l0 ++ l). clear - Hr Hc. induction Hr; cbn; auto. econstructor; eauto. }
  assert (Hin : in_use s1 k).
  { destruct (reach_inv _ _ _ _ _ H1 H2 Hr) as [HI Hl]. clear Hr Hr1. revert HI Hl Hu Hn. induction Hc as [s|s c s1 l s2 Hc E _ IH]; intros HI Hl Hu Hn; auto.
    destruct (run1_inv _ _ _ _ _ _ H1 H2 HI Hl Hc E) as (A1 & A2 & A3 & _). apply IH; auto.
    - apply A3; auto. intros ->. apply Hn. now left.
    - intros H. apply Hn. now right. }
  split; auto. intros E. destruct (new_session s1) as [s2 r] eqn:En. cbn [snd] in E. subst r.
  destruct (C45_open _ _ _ _ _ _ _ H1 H2 Hr1 En) as (_ & H & _). auto.
Qed.
Print Assumptions C45_exclusive.

(** Closing a session makes it available. *)
Theorem C45_close : forall slots bytes ns mf s k, (0 < slots)%nat -> (0 < ns)%nat -> reachable slots bytes ns mf s -> in_use s k ->
  exists s', close_session k s = Some s' /\ ~ in_use s' k /\ exists s2 j, new_session s' = (s2, Some j).
Proof.
  intros slots bytes ns mf s k H1 H2 Hr Hu. destruct (reach_inv _ _ _ _ _ H1 H2 Hr) as [HI Hl]. pose proof (in_use_lt _ _ _ _ _ HI Hu) as Hk.
  destruct (close_session_inv _ _ _ _ _ HI Hk) as (s' & E & A1 & A2 & A3 & A4 & _). exists s'. split; auto.
  assert (Hf : nth_error (f_sess s') k = Some FREE) by (rewrite A4, sset_nth, Nat.eqb_refl by (rewrite (si_len _ _ _ _ HI); auto); auto).
  assert (Hno : ~ in_use s' k) by (intros (v & Hv & Hne); congruence). split; auto.
  destruct (new_session s') as [s2 [j|]] eqn:En; [eauto|]. exfalso. apply Hno.
  destruct Hr as [l Hr]. assert (Hr1 : reachable slots bytes ns mf s').
  { exists (l ++ [CloseSession k]). clear - Hr E Hu. induction Hr; cbn; [econstructor; eauto; constructor|econstructor; eauto]. }
  apply (C45_open _ _ _ _ _ _ _ H1 H2 Hr1 En k Hk).
Qed.
Print Assumptions C45_close.

(** A file read with a session stays open, with the same memory, until the session reads another
    file or is closed: neither the limit on files nor the limit on memory closes it. *)
Theorem C51_pinned : forall slots bytes ns mf s id size k s0 l s1, (0 < slots)%nat -> (0 < ns)%nat -> reachable slots bytes ns mf s ->
  0 <= size -> in_use s k -> get_buffer_ses id size k s = Some s0 -> calls s0 l s1 -> Forall (fun c => ~ uses k c) l -> holds s1 k id.
Proof.
  intros slots bytes ns mf s id size k s0 l s1 H1 H2 Hr Hz Hu E Hc Hl. destruct (reach_inv _ _ _ _ _ H1 H2 Hr) as [HI HL].
  pose proof (in_use_lt _ _ _ _ _ HI Hu) as Hk.
  destruct (run1_inv _ _ _ (ReadSes id size k) _ _ H1 H2 HI HL (conj Hz Hu) E) as (B1 & B2 & _).
  destruct (ses_inv _ _ _ _ _ _ _ _ H1 Hz HI Hk E) as (A1 & A2 & (t & A3 & A4) & _).
  assert (Hh : holds s0 k id).
  { destruct (si_open _ _ _ _ A1 id t A3) as (b & Hb & Hp). exists t, b. repeat split; auto. rewrite A4, sset_nth, Nat.eqb_refl by (rewrite (si_len _ _ _ _ HI); auto). reflexivity. }
  clear - H1 H2 Hc Hl Hh B1 B2. induction Hc as [s|s c s1 l s2 Hc E _ IH]; auto. inversion Hl; subst.
  destruct (run1_inv _ _ _ _ _ _ H1 H2 B1 B2 Hc E) as (A1 & A2 & _ & A4). apply IH; auto.
Qed.
Print Assumptions C51_pinned.

(** The lock count of a block is the number of sessions on it, and every open file has exactly
    one block. *)
Theorem C51_locks : forall slots bytes ns mf s, (0 < slots)%nat -> (0 < ns)%nat -> reachable slots bytes ns mf s ->
  (forall t b, slot (f_mm s) t = Some b -> b_lock b = sessions_on s t /\ f_open s (b_parent b) = Some t) /\
  (forall id t, f_open s id = Some t -> exists b, slot (f_mm s) t = Some b /\ b_parent b = id) /\
  m_bytes (f_mm s) = total (m_blocks (f_mm s)).
Proof.
  intros slots bytes ns mf s H1 H2 Hr. destruct (reach_inv _ _ _ _ _ H1 H2 Hr) as [HI HL]. destruct HI as [I1 I2 I3 I4 I5 I6].
  repeat split; auto. apply I1.
Qed.
Print Assumptions C51_locks.

(** The search for a file to close ends if one of the listed files is open and at least two are
    listed. *)
Theorem C51_close_one_ends_partial : forall slots bytes ns mf s, (0 < slots)%nat -> (0 < ns)%nat -> reachable slots bytes ns mf s ->
  (2 <= length (f_list s))%nat -> (exists id, In id (f_list s) /\ f_open s id <> None) -> close_one s <> None.
Proof.
  intros slots bytes ns mf s H1 H2 Hr Hl (id & Hin & Ho). destruct (reach_inv _ _ _ _ _ H1 H2 Hr) as [HI HL]. unfold close_one.
  destruct (f_max s <=? f_n s); [|discriminate]. destruct (f_list s) as [|x [|y l]] eqn:El; [cbn in Hl; lia|cbn in Hl; lia|].
  assert (Hm : forall x t, f_open s x = Some t -> mm_isUsed t (f_mm s) <> None).
  { intros x' t Hx. destruct (si_open _ _ _ _ HI x' t Hx) as (b & Hb & _). unfold mm_isUsed. rewrite Hb. discriminate. }
  pose proof (lf_ends (f_mm s) (f_open s) Hm (y :: l) (2 * length (x :: y :: l) + 2) (f_n s) x ltac:(cbn; lia) ltac:(eauto)) as Hne.
  destruct (lf_loop _ _ _ _ _ _ _) as [[[[l1 n1] idx] rem]|] eqn:E; [|congruence]. destruct rem; [|discriminate].
  destruct (lf_some _ _ _ _ _ _ _ _ _ _ _ E eq_refl) as (t & Et & _). rewrite Et. discriminate.
Qed.
Print Assumptions C51_close_one_ends_partial.

Fixpoint run_calls (l : list call) (s : fm) : option fm :=
  match l with [] => Some s | c :: l => do s1 <- run1 c s; run_calls l s1 end.
Definition in_useb (s : fm) (k : nat) : bool := match nth_error (f_sess s) k with Some v => negb (v =? FREE) | None => false end.
Definition call_okb (s : fm) (c : call) : bool :=
  match c with
  | ReadSes _ size k => (0 <=? size) && in_useb s k
  | Read _ size | Grow _ size => 0 <=? size
  | CloseSession k => in_useb s k
  | NewSession => true
  end.
Fixpoint calls_okb (l : list call) (s : fm) : bool :=
  match l with [] => true | c :: l => call_okb s c && match run1 c s with Some s1 => calls_okb l s1 | None => false end end.
Lemma in_useb_ok s k : in_useb s k = true -> in_use s k.
Proof.
  unfold in_useb, in_use. destruct (nth_error (f_sess s) k) as [v|]; [|discriminate]. destruct (Z.eqb_spec v FREE); [discriminate|eauto].
Qed.
Lemma calls_run l : forall s s', calls_okb l s = true -> run_calls l s = Some s' -> calls s l s'.
Proof.
  induction l as [|c l IH]; intros s s' Ho E; cbn [run_calls calls_okb] in *; [injection E as <-; constructor|].
  apply andb_true_iff in Ho. destruct Ho as [H1 H2]. destruct (run1 c s) as [s1|] eqn:E1; [|discriminate]. econstructor; eauto.
  destruct c; cbn [call_okb call_ok] in *; auto.
  - now apply in_useb_ok.
  - now apply Z.leb_le.
  - apply andb_true_iff in H1. destruct H1 as [H3 H4]. split; [now apply Z.leb_le|now apply in_useb_ok].
  - now apply Z.leb_le.
Qed.

(** Two sessions pin files 1 and 2 of a manager for two files; files 3 and 4 are then opened, and
    the pinned ones stay. *)
Definition ex_calls : list call := [NewSession; NewSession; ReadSes 1 1 0; ReadSes 2 1 1; Read 3 1; Read 4 1].
Example C45_case : exists s, run_calls ex_calls (fm_new 8 3 4 2) = Some s /\ reachable 8 3 4 2 s /\
  in_use s 0 /\ snd (new_session s) = Some 2%nat /\ holds s 0 1 /\ holds s 1 2 /\ f_open s 3 = None /\ f_open s 4 <> None /\
  m_dead (f_mm s) = [] /\ (2 <= length (f_list s))%nat.
Proof.
  destruct (run_calls ex_calls (fm_new 8 3 4 2)) as [s|] eqn:E; [|vm_compute in E; discriminate]. exists s. split; auto.
  split; [exists ex_calls; apply calls_run; [reflexivity|exact E]|].
  vm_compute in E. injection E as <-. split; [exists 0; split; [reflexivity|discriminate]|].
  split; [reflexivity|]. split; [do 2 eexists; repeat split|]. split; [do 2 eexists; repeat split|]. repeat split; cbn; try lia; discriminate.
Qed.

(** Refuted in general: a manager for two files, no session in use and one file open, cannot open
    another file: the assertion in load_file fails.  (Files that were locked when load_file looked at
    them are dropped from the list, but still counted.) *)
Definition bad_calls : list call :=
  [NewSession; NewSession; ReadSes 1 1 0; ReadSes 2 1 1; Read 3 1; CloseSession 0; CloseSession 1;
   Read 4 1; Read 5 3; Read 6 1; Read 7 1].
Theorem C51_load_aborts_refuted : exists s, reachable 8 3 4 2 s /\ (forall k, ~ in_use s k) /\
  (forall id, f_open s id <> None -> id = 7%nat) /\ f_max s = 2 /\ get_buffer 8 1 s = None.
Proof.
  destruct (run_calls bad_calls (fm_new 8 3 4 2)) as [s|] eqn:E; [|vm_compute in E; discriminate]. exists s.
  split; [exists bad_calls; apply calls_run; [reflexivity|exact E]|].
  vm_compute in E. injection E as <-. split; [|split; [|split; reflexivity]].
  - intros k (v & Hv & Hf). do 5 (destruct k as [|k]; [cbn in Hv; first [discriminate|injection Hv as <-; now apply Hf]|]). discriminate.
  - intros id. cbn. do 9 (destruct id as [|id]; [cbn; congruence|]). cbn. congruence.
Qed.
Print Assumptions C51_load_aborts_refuted.
