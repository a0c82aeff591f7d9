(** The queue between threads: include/trident/utils/parallel.h 171-204, ConcurrentQueue.  Any
    number of threads; a step is what a thread does while it holds the mutex.  notify_one is
    called with the mutex held (180), so it is part of the step of push. *)
From Coq Require Import List Arith Bool.
Import ListNotations.

Section Queue.
Variable A : Type.
(** What a thread is doing: not waiting for an element; before the test of the loop of pop_wait
    (198-200); waiting for a notification. *)
Inductive qpc := QIdle | QWant | QSleep.
(** The queue, the threads; and the elements pushed and popped so far. *)
Record qst := mkQ { q_items : list A; q_thr : list qpc; q_pushed : list A; q_popped : list A }.

Fixpoint set_thr (l : list qpc) (i : nat) (p : qpc) : list qpc :=
  match l, i with [], _ => [] | _ :: l, O => p :: l | x :: l, S i => x :: set_thr l i p end.

Inductive qstep : qst -> qst -> Prop :=
(* 179-183, push: with nobody waiting, or waking one of the waiting threads *)
| q_push_none q t a b x : ~ In QSleep t -> qstep (mkQ q t a b) (mkQ (q ++ [x]) t (a ++ [x]) b)
| q_push_wake q t a b x i : nth_error t i = Some QSleep ->
    qstep (mkQ q t a b) (mkQ (q ++ [x]) (set_thr t i QWant) (a ++ [x]) b)
(* 185-189, pop; undefined on an empty queue *)
| q_pop q t a b x : qstep (mkQ (x :: q) t a b) (mkQ q t a (b ++ [x]))
(* 196-203, pop_wait *)
| q_call q t a b i : nth_error t i = Some QIdle -> qstep (mkQ q t a b) (mkQ q (set_thr t i QWant) a b)
| q_take q t a b x i : nth_error t i = Some QWant ->
    qstep (mkQ (x :: q) t a b) (mkQ q (set_thr t i QIdle) a (b ++ [x]))
| q_wait t a b i : nth_error t i = Some QWant -> qstep (mkQ [] t a b) (mkQ [] (set_thr t i QSleep) a b)
(* a spurious wake-up *)
| q_spur q t a b i : nth_error t i = Some QSleep -> qstep (mkQ q t a b) (mkQ q (set_thr t i QWant) a b).

Inductive qreach (n : nat) : qst -> Prop :=
| qr_init : qreach n (mkQ [] (repeat QIdle n) [] [])
| qr_step s s' : qreach n s -> qstep s s' -> qreach n s'.
End Queue.
