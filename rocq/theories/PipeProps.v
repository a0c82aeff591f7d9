(** C48: parallel loading neither loses, duplicates, reorders nor corrupts an item, has no race
    on a buffer, and always ends. *)
From Coq Require Import List Arith Bool Lia Permutation.
Import ListNotations.
From Verif Require Import PipeModel PipeProofs.

(** An execution of [n] thread steps and [k] spurious wake-ups, in any interleaving. *)
Inductive run {A} (cap : nat) : nat -> nat -> pst A -> pst A -> Prop :=
| run_nil s : run cap 0 0 s s
| run_step n k s s' s'' : run cap n k s s' -> pstep A cap s' s'' -> run cap (S n) k s s''
| run_spur n k s s' s'' : run cap n k s s' -> spurious A s' s'' -> run cap n (S k) s s''.

Lemma run_reach A cap nbuf m0 (input : list A) n k s :
  run cap n k (pinit A nbuf m0 input) s -> preach A cap nbuf m0 input s.
Proof. intros H. remember (pinit A nbuf m0 input) as s0. induction H; subst; [constructor|eapply pr_step; eauto|eapply pr_spur; eauto]. Qed.

(** At any time what was inserted is a prefix of what the merger gave, in order. *)
Theorem C48_prefix : forall A cap nbuf m0 (input : list A) n k s, 1 <= cap ->
  run cap n k (pinit A nbuf m0 input) s -> exists tail, s_out s ++ tail = input.
Proof.
  intros A cap nbuf m0 input n k s Hc H. apply run_reach, reach_inv in H; auto. destruct H. eauto.
Qed.
Print Assumptions C48_prefix.

(** The buffer the merging thread writes is not the buffer being inserted, nor one that waits
    to be inserted, nor a free one; and the buffer being inserted is not free. *)
Theorem C48_no_race : forall A cap nbuf m0 (input : list A) n k s, 1 <= cap ->
  run cap n k (pinit A nbuf m0 input) s ->
  (forall b i, s_p s = PLoop b i ->
     ~ In b (s_free s) /\ ~ In b (map fst (s_exch s)) /\ (forall j m, s_c s <> CProc b j m)) /\
  (forall b j m, s_c s = CProc b j m -> ~ In b (s_free s) /\ ~ In b (map fst (s_exch s))) /\
  (forall b i, s_p s = PLoop b i -> i <= cap).
Proof.
  intros A cap nbuf m0 input n k s Hc H. apply run_reach, reach_inv in H; auto. destruct H as [H1 _ _ H4 _ _ _ _ _].
  assert (Hn := perm_fresh _ _ _ _ _ H1). repeat split.
  - rewrite H in Hn. cbn [held] in Hn. apply NoDup_remove_2 in Hn. rewrite !in_app_iff in Hn. tauto.
  - rewrite H in Hn. cbn [held] in Hn. apply NoDup_remove_2 in Hn. rewrite !in_app_iff in Hn. tauto.
  - intros j m E. rewrite H, E in Hn. cbn [held heldc] in Hn. apply NoDup_remove_2 in Hn. rewrite !in_app_iff in Hn. cbn in Hn. tauto.
  - rewrite H in Hn. cbn [heldc] in Hn. rewrite !app_assoc in Hn. apply NoDup_remove_2 in Hn. rewrite !in_app_iff in Hn. tauto.
  - rewrite H in Hn. cbn [heldc] in Hn. rewrite !app_assoc in Hn. apply NoDup_remove_2 in Hn. rewrite !in_app_iff in Hn. tauto.
  - intros b i E. rewrite E in H4. exact H4.
Qed.
Print Assumptions C48_no_race.

(** When no thread can go on, both have finished, everything was inserted once and in order, no
    buffer waits and all buffers are free again.  So there is no deadlock. *)
Theorem C48_no_deadlock : forall A cap nbuf m0 (input : list A) n k s, 1 <= cap -> 1 <= nbuf ->
  run cap n k (pinit A nbuf m0 input) s -> (forall s', ~ pstep A cap s s') ->
  s_p s = PDone /\ s_c s = CDone /\ s_out s = input /\ s_exch s = [] /\ Permutation (s_free s) (seq 0 nbuf).
Proof.
  intros A cap nbuf m0 input n k s Hc Hb H Hs. apply run_reach, reach_inv in H; auto.
  destruct (live cap Hc nbuf input s Hb H) as [[E1 E2]|[s' E]]; [|now apply Hs in E].
  destruct (final cap nbuf input s H E1 E2) as (F1 & F2 & F3). auto.
Qed.
Print Assumptions C48_no_deadlock.

(** The inserting thread leaves its loop only after every item was inserted. *)
Theorem C48_consumer_done : forall A cap nbuf m0 (input : list A) n k s, 1 <= cap ->
  run cap n k (pinit A nbuf m0 input) s -> s_c s = CDone -> s_out s = input.
Proof. intros A cap nbuf m0 input n k s Hc H E. apply run_reach, reach_inv in H; auto. now apply (c_done_p cap nbuf input). Qed.
Print Assumptions C48_consumer_done.

Lemma run_meas A cap n k (s s' : pst A) : run cap n k s s' -> n + meas s' <= meas s + k.
Proof.
  induction 1 as [s|n k s s1 s2 R IH E|n k s s1 s2 R IH E]; [lia| |].
  - apply meas_step in E. lia.
  - assert (meas s2 <= S (meas s1)); [|lia]. destruct E; unfold meas; cbn [s_rest s_p s_c s_exch]; try (match goal with x : kont A |- _ => destruct x end); cbn [wp bp wc bc]; lia.
Qed.

(** Every execution ends: with [k] spurious wake-ups it has at most [30 |input| + 50 + k] steps. *)
Theorem C48_terminates : forall A cap nbuf m0 (input : list A) n k s,
  run cap n k (pinit A nbuf m0 input) s -> n <= 30 * length input + 50 + k.
Proof.
  intros A cap nbuf m0 input n k s H. apply run_meas in H. unfold meas at 2 in H. cbn [pinit s_rest s_p s_c s_exch wp bp wc bc we] in H. lia.
Qed.
Print Assumptions C48_terminates.

Lemma step_dec A cap nbuf input (s : pst A) : 1 <= cap -> 1 <= nbuf -> Inv cap nbuf input s ->
  exists n s', run cap n 0 s s' /\ Inv cap nbuf input s' /\ s_p s' = PDone /\ s_c s' = CDone.
Proof.
  intros Hc Hb. remember (meas s) as N eqn:E. revert s E. induction N as [N IH] using lt_wf_ind. intros s -> HI.
  destruct (live cap Hc nbuf input s Hb HI) as [[E1 E2]|[s1 E]].
  - exists 0, s. repeat (split; auto). constructor.
  - destruct (IH (meas s1) (meas_step _ _ _ E) s1 eq_refl (inv_step _ Hc _ _ _ _ HI E)) as (n & s' & R & HI' & E1 & E2).
    exists (S n), s'. repeat (split; auto). clear - R E. remember 0 as z. induction R; subst.
    + eapply run_step; [constructor|exact E].
    + eapply run_step; eauto.
    + discriminate.
Qed.

(** From every state an execution reaches, some schedule completes the load. *)
Theorem C48_can_finish : forall A cap nbuf m0 (input : list A) n k s, 1 <= cap -> 1 <= nbuf ->
  run cap n k (pinit A nbuf m0 input) s ->
  exists n' s', run cap n' 0 s s' /\ s_p s' = PDone /\ s_c s' = CDone /\ s_out s' = input.
Proof.
  intros A cap nbuf m0 input n k s Hc Hb H. apply run_reach, reach_inv in H; auto.
  destruct (step_dec A cap nbuf input s Hc Hb H) as (n' & s' & R & HI & E1 & E2). exists n', s'.
  repeat (split; auto). now apply (final cap nbuf input).
Qed.
Print Assumptions C48_can_finish.

Lemma run_cons A cap n (s s1 s' : pst A) : pstep A cap s s1 -> run cap n 0 s1 s' -> run cap (S n) 0 s s'.
Proof.
  intros E R. remember 0 as z. induction R; subst.
  - eapply run_step; [constructor|exact E].
  - eapply run_step; eauto.
  - discriminate.
Qed.

(** A concrete run: two buffers of one item, two items; the consumer sleeps first, is woken, and
    the producer waits for a buffer before the end. *)
Example C48_case : exists n s, run 1 n 0 (pinit nat 2 (fun _ _ => 0) [7; 8]) s /\
  s_p s = PSleep KEnd /\ s_out s = [] /\ s_exch s = [(1, 1); (0, 1)] /\ s_free s = [].
Proof.
  unfold pinit. cbn [seq]. do 2 eexists. split.
  - eapply run_cons; [apply c_sleep|].
    eapply run_cons; [apply (p_get0 nat 1 _ _ [0] 1)|].
    eapply run_cons; [apply p_write; discriminate|].
    eapply run_cons; [apply p_full; reflexivity|].
    eapply run_cons; [apply p_push|].
    eapply run_cons; [apply p_notify|].
    eapply run_cons; [apply (p_get_item nat 1 _ _ _ [] 0)|].
    eapply run_cons; [apply p_end_full; reflexivity|].
    eapply run_cons; [apply p_push|].
    eapply run_cons; [apply p_notify|].
    eapply run_cons; [apply p_sleep|].
    apply run_nil.
  - cbn. auto.
Qed.
