(** C66: closing a string buffer. *)
From Verif Require Import StrCloseModel StrCloseProofs.

(** When the destructor goes on to write the index every block that was handed over is in the file. *)
Theorem C66_close_is_complete : forall k s, reach k s -> m s = Closed -> blocks s = k /\ (w s = WEnd \/ w s = Gone).
Proof.
  intros k s R E. pose proof (inv_reach _ _ R) as I. pose proof (count_reach _ _ R) as C.
  destruct s as [x t b g r p q n c]. unfold inv, count in *. cbn in *. subst p. cbn in *.
  destruct q; destruct x as [[|]|]; try discriminate; cbn in *; destruct n; try discriminate; destruct b; try discriminate; destruct r; cbn in *; try discriminate; destruct g; try discriminate; split; auto.
Qed.
Print Assumptions C66_close_is_complete.

(** Until the destructor has announced the end to the compression thread, one of the two threads can go on. *)
Theorem C66_handing_over_never_blocks : forall k s, reach k s -> late (m s) = false -> ~ stuck s.
Proof. intros k s R L. destruct (early_moves s (inv_reach _ _ R) L) as (s' & St). intros X. exact (X _ St). Qed.
Print Assumptions C66_handing_over_never_blocks.

Lemma hand_over k n c g : reach k (mkSt None false Null g true PLock WLock (S n) c) ->
  reach k (mkSt None false Null Block true (match n with O => CLock | _ => PLock end) WLock n (S c)).
Proof.
  intros R.
  eapply reach_step in R; [|apply s_plock; reflexivity]. cbn in R.
  eapply reach_step in R; [|apply s_ptest; reflexivity]. cbn in R.
  eapply reach_step in R; [|apply s_pset; reflexivity]. cbn in R.
  eapply reach_step in R; [|apply s_punlock; reflexivity]. cbn in R.
  eapply reach_step in R; [|apply s_pnotify; reflexivity]. cbn in R.
  eapply reach_step in R; [|apply s_wlock; reflexivity]. cbn in R.
  eapply reach_step in R; [|apply s_wtest; reflexivity]. cbn in R.
  eapply reach_step in R; [|apply s_wtake; reflexivity]. cbn in R.
  eapply reach_step in R; [|apply s_wunlock; reflexivity]. cbn in R.
  eapply reach_step in R; [|apply s_wnotify; reflexivity]. cbn in R.
  eapply reach_step in R; [|apply s_wwork; reflexivity]. cbn in R.
  destruct n; exact R.
Qed.
Lemma hand_all k : exists g c, reach k (mkSt None false Null g true CLock WLock 0 c).
Proof.
  assert (H : forall n g c, reach k (mkSt None false Null g true (match n with O => CLock | _ => PLock end) WLock n c) -> exists g c, reach k (mkSt None false Null g true CLock WLock 0 c)).
  { induction n as [|n IH]; intros g c R; [eauto|]. apply hand_over in R. eapply IH; eauto. }
  eapply H. apply reach_start.
Qed.

(** Closing can block for ever: the destructor assigns FINISH_THREAD and notifies without the mutex (lines 597-598).  If
    the compression thread has just found the slot empty and is about to wait, it misses the notification. *)
Theorem C66_close_returns_refuted : forall k, exists s, reach k s /\ stuck s /\ m s = TSleep /\ w s = WSleep /\ buf s = Finish.
Proof.
  intros k. destruct (hand_all k) as (g & c & R).
  eapply reach_step in R; [|apply s_clock; reflexivity]. cbn in R.
  eapply reach_step in R; [|apply s_ctest; reflexivity]. cbn in R.
  eapply reach_step in R; [|apply s_cunlock; reflexivity]. cbn in R.
  eapply reach_step in R; [|apply s_wlock; reflexivity]. cbn in R.
  eapply reach_step in R; [|apply s_wtest; reflexivity]. cbn in R.
  eapply reach_step in R; [|apply s_cset; reflexivity]. cbn in R.
  eapply reach_step in R; [|apply s_cnotify; reflexivity]. cbn in R.
  eapply reach_step in R; [|apply s_wwait; reflexivity]. cbn in R.
  eapply reach_step in R; [|apply s_tlock; reflexivity]. cbn in R.
  eapply reach_step in R; [|apply s_ttest; reflexivity]. cbn in R.
  eapply reach_step in R; [|apply s_twait; reflexivity]. cbn in R.
  eexists; split; [exact R|]. split; [|auto]. intros s' St. inversion St; subst; cbn in *; discriminate.
Qed.
Print Assumptions C66_close_returns_refuted.

(** The same for the other condition variable: the thread sets threadRunning and notifies (lines 223-224) between the
    test of isThreadFinished and the wait in line 601. *)
Theorem C66_end_is_noticed_refuted : forall k, exists s, reach k s /\ stuck s /\ m s = TSleep /\ w s = Gone /\ running s = false.
Proof.
  intros k. destruct (hand_all k) as (g & c & R).
  eapply reach_step in R; [|apply s_clock; reflexivity]. cbn in R.
  eapply reach_step in R; [|apply s_ctest; reflexivity]. cbn in R.
  eapply reach_step in R; [|apply s_cunlock; reflexivity]. cbn in R.
  eapply reach_step in R; [|apply s_cset; reflexivity]. cbn in R.
  eapply reach_step in R; [|apply s_cnotify; reflexivity]. cbn in R.
  eapply reach_step in R; [|apply s_tlock; reflexivity]. cbn in R.
  eapply reach_step in R; [|apply s_ttest; reflexivity]. cbn in R.
  eapply reach_step in R; [|apply s_wlock; reflexivity]. cbn in R.
  eapply reach_step in R; [|apply s_wtest; reflexivity]. cbn in R.
  eapply reach_step in R; [|apply s_wtake; reflexivity]. cbn in R.
  eapply reach_step in R; [|apply s_wunlock; reflexivity]. cbn in R.
  eapply reach_step in R; [|apply s_wnotify; reflexivity]. cbn in R.
  eapply reach_step in R; [|apply s_wflag; reflexivity]. cbn in R.
  eapply reach_step in R; [|apply s_wend; reflexivity]. cbn in R.
  eapply reach_step in R; [|apply s_twait; reflexivity]. cbn in R.
  eexists; split; [exact R|]. split; [|auto]. intros s' St. inversion St; subst; cbn in *; discriminate.
Qed.
Print Assumptions C66_end_is_noticed_refuted.

(** A run of two blocks that is closed. *)
Example C66_two_blocks_closed : exists s, reach 2 s /\ m s = Closed /\ blocks s = 2.
Proof.
  assert (R : reach 2 (start 2)) by apply reach_start. apply hand_over in R. apply hand_over in R.
  eapply reach_step in R; [|apply s_clock; reflexivity]. cbn in R.
  eapply reach_step in R; [|apply s_ctest; reflexivity]. cbn in R.
  eapply reach_step in R; [|apply s_cunlock; reflexivity]. cbn in R.
  eapply reach_step in R; [|apply s_cset; reflexivity]. cbn in R.
  eapply reach_step in R; [|apply s_cnotify; reflexivity]. cbn in R.
  eapply reach_step in R; [|apply s_wlock; reflexivity]. cbn in R.
  eapply reach_step in R; [|apply s_wtest; reflexivity]. cbn in R.
  eapply reach_step in R; [|apply s_wtake; reflexivity]. cbn in R.
  eapply reach_step in R; [|apply s_wunlock; reflexivity]. cbn in R.
  eapply reach_step in R; [|apply s_wnotify; reflexivity]. cbn in R.
  eapply reach_step in R; [|apply s_wflag; reflexivity]. cbn in R.
  eapply reach_step in R; [|apply s_tlock; reflexivity]. cbn in R.
  eapply reach_step in R; [|apply s_ttest; reflexivity]. cbn in R.
  eexists; split; [exact R|]. auto.
Qed.
