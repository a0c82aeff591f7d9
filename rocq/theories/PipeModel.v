(** Parallel loading: the merging thread (producer) and the inserting thread (consumer) of
    src/trident/kb/loader.cpp.  Small-step semantics; one step is what a thread does between
    two accesses to shared state.  A critical section is one step; the test of a condition and
    the following wait are one step (the mutex is released by the wait); notify_one is a step
    of its own, after the mutex is released. *)
From Coq Require Import List Arith Bool.
Import ListNotations.

Section Pipe.
Variable A : Type.          (* four numbers: a triple and its count *)
Variable cap : nat.         (* sizebuffer / 4 *)

(** loader.cpp 524-597, parallelmerge: what follows the push of a full buffer: the item read
    from the merger, or the final (empty) buffer. *)
Inductive kont := KItem (t : A) | KEnd.
Inductive ppc :=
| PGet0 | PSleep0                      (* waiting for the first buffer *)
| PLoop (b i : nat)                    (* in the loop, buffer b has i items *)
| PPush (b i : nat) (k : kont)         (* before a full buffer is handed over *)
| PNotify (k : kont) | PGet (k : kont) | PSleep (k : kont)
| PLast (b i : nat)                    (* before the last buffer is handed over *)
| PNotifyL | PDone.

(** loader.cpp 1088-1147, the loop of Loader::insert. *)
Inductive cpc :=
| CCheck | CSleep
| CProc (b i n : nat)                  (* processing item i of the n items of buffer b *)
| CRel (b n : nat) | CNotify (n : nat) | CDone.

(** The shared state: [s_rest] what the merger still has, [s_free] buffers (a stack, its top is
    at the end), [s_exch] exchangeBuffers, [s_mem] the content of the buffers, [s_out] the items
    processed so far. *)
Record pst := mkP { s_rest : list A; s_p : ppc; s_c : cpc; s_free : list nat;
  s_exch : list (nat * nat); s_mem : nat -> nat -> A; s_out : list A }.

(** notify_one: a thread that waits on the condition goes on to test it again. *)
Definition wakeC (c : cpc) : cpc := match c with CSleep => CCheck | _ => c end.
Definition wakeP (p : ppc) : ppc := match p with PSleep0 => PGet0 | PSleep k => PGet k | _ => p end.

Definition put (m : nat -> nat -> A) (b i : nat) (t : A) : nat -> nat -> A :=
  fun b' i' => if Nat.eqb b' b && Nat.eqb i' i then t else m b' i'.

Inductive pstep : pst -> pst -> Prop :=
(* parallelmerge: the first buffer *)
| p_get0 r c f b e m o : pstep (mkP r PGet0 c (f ++ [b]) e m o) (mkP r (PLoop b 0) c f e m o)
| p_sleep0 r c e m o : pstep (mkP r PGet0 c [] e m o) (mkP r PSleep0 c [] e m o)
(* the loop *)
| p_write t r b i c f e m o : i <> cap ->
    pstep (mkP (t :: r) (PLoop b i) c f e m o) (mkP r (PLoop b (S i)) c f e (put m b i t) o)
| p_full t r b i c f e m o : i = cap ->
    pstep (mkP (t :: r) (PLoop b i) c f e m o) (mkP r (PPush b i (KItem t)) c f e m o)
| p_push r b i k c f e m o :
    pstep (mkP r (PPush b i k) c f e m o) (mkP r (PNotify k) c f (e ++ [(b, i)]) m o)
| p_notify r k c f e m o : pstep (mkP r (PNotify k) c f e m o) (mkP r (PGet k) (wakeC c) f e m o)
| p_sleep r k c e m o : pstep (mkP r (PGet k) c [] e m o) (mkP r (PSleep k) c [] e m o)
| p_get_item r t c f b e m o :
    pstep (mkP r (PGet (KItem t)) c (f ++ [b]) e m o) (mkP r (PLoop b 1) c f e (put m b 0 t) o)
(* the end of the input *)
| p_end_full b i c f e m o : i = cap ->
    pstep (mkP [] (PLoop b i) c f e m o) (mkP [] (PPush b i KEnd) c f e m o)
| p_get_end r c f b e m o :
    pstep (mkP r (PGet KEnd) c (f ++ [b]) e m o) (mkP r (PLast b 0) c f e m o)
| p_end b i c f e m o : i <> cap -> pstep (mkP [] (PLoop b i) c f e m o) (mkP [] (PLast b i) c f e m o)
| p_last r b i c f e m o : pstep (mkP r (PLast b i) c f e m o) (mkP r PNotifyL c f (e ++ [(b, i)]) m o)
| p_notifyL r c f e m o : pstep (mkP r PNotifyL c f e m o) (mkP r PDone (wakeC c) f e m o)
(* the inserting thread *)
| c_take r p f b n e m o : pstep (mkP r p CCheck f ((b, n) :: e) m o) (mkP r p (CProc b 0 n) f e m o)
| c_sleep r p f m o : pstep (mkP r p CCheck f [] m o) (mkP r p CSleep f [] m o)
| c_item r p b i n f e m o : i < n ->
    pstep (mkP r p (CProc b i n) f e m o) (mkP r p (CProc b (S i) n) f e m (o ++ [m b i]))
| c_fin r p b i n f e m o : n <= i -> pstep (mkP r p (CProc b i n) f e m o) (mkP r p (CRel b n) f e m o)
| c_rel r p b n f e m o : pstep (mkP r p (CRel b n) f e m o) (mkP r p (CNotify n) (f ++ [b]) e m o)
| c_notify_more r p n f e m o : cap <= n ->
    pstep (mkP r p (CNotify n) f e m o) (mkP r (wakeP p) CCheck f e m o)
| c_notify_done r p n f e m o : n < cap ->
    pstep (mkP r p (CNotify n) f e m o) (mkP r (wakeP p) CDone f e m o).

(** A condition variable may also wake a thread without a notification. *)
Inductive spurious : pst -> pst -> Prop :=
| sp_c r p f e m o : spurious (mkP r p CSleep f e m o) (mkP r p CCheck f e m o)
| sp_p0 r c f e m o : spurious (mkP r PSleep0 c f e m o) (mkP r PGet0 c f e m o)
| sp_p r k c f e m o : spurious (mkP r (PSleep k) c f e m o) (mkP r (PGet k) c f e m o).

(** loader.cpp 1056-1079: [nbuf] (3) buffers are created, with arbitrary content, and the
    merging thread is started. *)
Definition pinit (nbuf : nat) (m0 : nat -> nat -> A) (input : list A) : pst :=
  mkP input PGet0 CCheck (seq 0 nbuf) [] m0 [].

Inductive preach (nbuf : nat) (m0 : nat -> nat -> A) (input : list A) : pst -> Prop :=
| pr_init : preach nbuf m0 input (pinit nbuf m0 input)
| pr_step s s' : preach nbuf m0 input s -> pstep s s' -> preach nbuf m0 input s'
| pr_spur s s' : preach nbuf m0 input s -> spurious s s' -> preach nbuf m0 input s'.

Inductive psteps : nat -> pst -> pst -> Prop :=
| ps_refl s : psteps 0 s s
| ps_step n s s' s'' : pstep s s' -> psteps n s' s'' -> psteps (S n) s s''.
End Pipe.
