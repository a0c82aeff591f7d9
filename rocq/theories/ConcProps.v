(** C50: the queue between threads. *)
From Coq Require Import List Arith Bool Lia.
Import ListNotations.
From Verif Require Import ConcModel.

(** Every element pushed is popped exactly once, in the order of the pushes. *)
Theorem C50_fifo : forall A n (s : qst A), qreach A n s -> q_pushed A s = q_popped A s ++ q_items A s.
Proof.
  intros A n s. induction 1 as [|s s' H IH E]; [reflexivity|]. destruct E; cbn [q_pushed q_popped q_items] in *; auto.
  - now rewrite IH, app_assoc.
  - now rewrite IH, app_assoc.
  - now rewrite <- app_assoc.
  - now rewrite <- app_assoc.
Qed.
Print Assumptions C50_fifo.

Definition awake (t : list qpc) : nat := length (filter (fun p => match p with QWant => true | _ => false end) t).
Definition qw (p : qpc) : nat := match p with QWant => 1 | _ => 0 end.

Lemma set_awake t i p q : nth_error t i = Some q -> awake (set_thr t i p) + qw q = awake t + qw p.
Proof.
  unfold awake. revert i. induction t as [|x t IH]; intros [|i] E; cbn in E; try discriminate.
  - injection E as ->. destruct q, p; cbn; lia.
  - specialize (IH i E). cbn. destruct x; cbn; lia.
Qed.
Lemma set_in t i p x : In x (set_thr t i p) -> x = p \/ In x t.
Proof. revert i. induction t as [|y t IH]; intros [|i]; cbn; try tauto. - intuition auto. - intros [->|H]; auto. apply IH in H. tauto. Qed.

(** While a thread sleeps, there are at least as many threads on their way to take an element as
    there are elements: no wake-up is lost. *)
Theorem C50_no_lost_wakeup : forall A n (s : qst A), qreach A n s -> In QSleep (q_thr A s) ->
  length (q_items A s) <= awake (q_thr A s).
Proof.
  intros A n s H. induction H as [|s s' H IH E].
  - cbn. lia.
  - destruct E; cbn [q_items q_thr] in *; intros Hin.
    + contradiction.
    + rewrite app_length. cbn. pose proof (set_awake _ _ QWant _ H0) as Ha. cbn in Ha. apply nth_error_In in H0. specialize (IH H0). lia.
    + specialize (IH Hin). cbn in IH. lia.
    + pose proof (set_awake _ _ QWant _ H0) as Ha. cbn in Ha. apply set_in in Hin. destruct Hin as [|Hin]; [discriminate|]. specialize (IH Hin). lia.
    + pose proof (set_awake _ _ QIdle _ H0) as Ha. cbn in Ha. apply set_in in Hin. destruct Hin as [|Hin]; [discriminate|]. specialize (IH Hin). cbn in IH. lia.
    + cbn. lia.
    + pose proof (set_awake _ _ QWant _ H0) as Ha. cbn in Ha. apply nth_error_In in H0. specialize (IH H0). lia.
Qed.
Print Assumptions C50_no_lost_wakeup.

(** So, if there is an element and a thread that waits for one, some thread takes one. *)
Theorem C50_progress : forall A n (s : qst A) x, qreach A n s -> q_items A s = x :: tl (q_items A s) ->
  (In QSleep (q_thr A s) \/ In QWant (q_thr A s)) ->
  exists i, nth_error (q_thr A s) i = Some QWant /\
    qstep A s (mkQ A (tl (q_items A s)) (set_thr (q_thr A s) i QIdle) (q_pushed A s) (q_popped A s ++ [x])).
Proof.
  intros A n s x H E Hw. assert (Hin : In QWant (q_thr A s)).
  { destruct Hw as [Hw|]; auto. pose proof (C50_no_lost_wakeup A n s H Hw) as Hl. rewrite E in Hl. cbn in Hl.
    unfold awake in Hl. destruct (filter _ (q_thr A s)) as [|p l] eqn:Ef; [cbn in Hl; lia|].
    assert (Hp : In p (p :: l)) by (cbn; auto). rewrite <- Ef in Hp. apply filter_In in Hp. destruct Hp as [Hp1 Hp2]. destruct p; try discriminate. exact Hp1. }
  apply In_nth_error in Hin. destruct Hin as [i Hi]. exists i. split; auto. destruct s as [q t a b]. cbn [q_items q_thr q_pushed q_popped] in *.
  rewrite E at 1. now apply q_take.
Qed.
Print Assumptions C50_progress.

(** Two threads wait; one push wakes one of them; a third thread could still steal the element,
    but nothing is lost. *)
Example C50_case : exists s, qreach nat 3 s /\ q_items nat s = [5] /\ q_thr nat s = [QWant; QSleep; QIdle].
Proof.
  eexists. split.
  - eapply qr_step; [|eapply (q_push_wake nat [] [QSleep; QSleep; QIdle] [] [] 5 0 eq_refl)].
    eapply qr_step; [|eapply (q_wait nat [QSleep; QWant; QIdle] [] [] 1 eq_refl)].
    eapply qr_step; [|eapply (q_wait nat [QWant; QWant; QIdle] [] [] 0 eq_refl)].
    eapply qr_step; [|eapply (q_call nat [] [QWant; QIdle; QIdle] [] [] 1 eq_refl)].
    eapply qr_step; [|eapply (q_call nat [] [QIdle; QIdle; QIdle] [] [] 0 eq_refl)].
    apply (qr_init nat 3).
  - cbn. auto.
Qed.
