(** The two threads of a string buffer that is written and closed, src/trident/tree/stringbuffer.cpp: the locks, the
    condition variables and what is guarded by them.  The blocks themselves are in StrModel. *)
From Coq Require Export List Arith Lia.
Export ListNotations.

(** bufferToCompress: NULL, a block, FINISH_THREAD. *)
Inductive slot := Null | Block | Finish.
Inductive who := Main | Worker.
(** The main thread.  compressLastBlock, lines 327-337: [PLock] wants _compressMutex, [PTest] has it and is at line 329,
    [PWait] found the slot full, [PSleep] waits for the condition variable, [PSet] assigns, [PUnlock], [PNotify].
    The destructor, lines 590-601: the same up to line 594, then [CSet] is line 597, [CNotify] line 598; [TLock], [TTest], [TWait] and
    [TSleep] are lines 600-601 with _compressTerm; [Closed] is line 603. *)
Inductive mpc := PLock | PTest | PWait | PSleep | PSet | PUnlock | PNotify | CLock | CTest | CWait | CSleep | CUnlock | CSet | CNotify | TLock | TTest | TWait | TSleep | Closed.
(** compressBlocks, lines 175-225: [WLock] is line 181, [WTest] 182, [WWait] the call in line 183, [WSleep] inside it, [WTake] 185-187,
    [WUnlock] 188, [WNotify] 190, [WWork] 192-220, [WFlag] 223, [WEnd] 224, [Gone] afterwards. *)
Inductive wpc := WLock | WTest | WWait | WSleep | WTake | WUnlock | WNotify | WWork | WFlag | WEnd | Gone.

(** [todo] counts the calls of compressLastBlock that are still to come, [got] is currentUncompressedBuffer, [blocks] counts the blocks
    written to the file. *)
Record st := mkSt { mx : option who; tx : bool; buf : slot; got : slot; running : bool; m : mpc; w : wpc; todo : nat; blocks : nat }.

Definition start (k : nat) : st := mkSt None false Null Null true (match k with O => CLock | _ => PLock end) WLock k 0.

(** A thread that is woken up has to get the mutex again: wait() returns to the test of the loop. *)
Definition wake_main (p : mpc) : option mpc := match p with PSleep => Some PLock | CSleep => Some CLock | _ => None end.
Definition wake_worker (p : wpc) : option wpc := match p with WSleep => Some WLock | _ => None end.

Inductive step : st -> st -> Prop :=
(* the main thread, compressLastBlock *)
| s_plock s : m s = PLock -> mx s = None -> step s (mkSt (Some Main) (tx s) (buf s) (got s) (running s) PTest (w s) (todo s) (blocks s))
| s_ptest s : m s = PTest -> step s (mkSt (mx s) (tx s) (buf s) (got s) (running s) (match buf s with Null => PSet | _ => PWait end) (w s) (todo s) (blocks s))
| s_pwait s : m s = PWait -> step s (mkSt None (tx s) (buf s) (got s) (running s) PSleep (w s) (todo s) (blocks s))
| s_pset s : m s = PSet -> step s (mkSt (mx s) (tx s) Block (got s) (running s) PUnlock (w s) (pred (todo s)) (blocks s))
| s_punlock s : m s = PUnlock -> step s (mkSt None (tx s) (buf s) (got s) (running s) PNotify (w s) (todo s) (blocks s))
| s_pnotify s : m s = PNotify ->
    step s (mkSt (mx s) (tx s) (buf s) (got s) (running s) (match todo s with O => CLock | _ => PLock end)
      (match wake_worker (w s) with Some p => p | None => w s end) (todo s) (blocks s))
(* the main thread, the destructor *)
| s_clock s : m s = CLock -> mx s = None -> step s (mkSt (Some Main) (tx s) (buf s) (got s) (running s) CTest (w s) (todo s) (blocks s))
| s_ctest s : m s = CTest -> step s (mkSt (mx s) (tx s) (buf s) (got s) (running s) (match buf s with Null => CUnlock | _ => CWait end) (w s) (todo s) (blocks s))
| s_cwait s : m s = CWait -> step s (mkSt None (tx s) (buf s) (got s) (running s) CSleep (w s) (todo s) (blocks s))
| s_cunlock s : m s = CUnlock -> step s (mkSt None (tx s) (buf s) (got s) (running s) CSet (w s) (todo s) (blocks s))
| s_cset s : m s = CSet -> step s (mkSt (mx s) (tx s) Finish (got s) (running s) CNotify (w s) (todo s) (blocks s))
| s_cnotify s : m s = CNotify ->
    step s (mkSt (mx s) (tx s) (buf s) (got s) (running s) TLock (match wake_worker (w s) with Some p => p | None => w s end) (todo s) (blocks s))
| s_tlock s : m s = TLock -> tx s = false -> step s (mkSt (mx s) true (buf s) (got s) (running s) TTest (w s) (todo s) (blocks s))
| s_ttest s : m s = TTest -> step s (mkSt (mx s) (tx s) (buf s) (got s) (running s) (if running s then TWait else Closed) (w s) (todo s) (blocks s))
| s_twait s : m s = TWait -> step s (mkSt (mx s) false (buf s) (got s) (running s) TSleep (w s) (todo s) (blocks s))
(* the compression thread *)
| s_wlock s : w s = WLock -> mx s = None -> step s (mkSt (Some Worker) (tx s) (buf s) (got s) (running s) (m s) WTest (todo s) (blocks s))
| s_wtest s : w s = WTest -> step s (mkSt (mx s) (tx s) (buf s) (got s) (running s) (m s) (match buf s with Null => WWait | _ => WTake end) (todo s) (blocks s))
| s_wwait s : w s = WWait -> step s (mkSt None (tx s) (buf s) (got s) (running s) (m s) WSleep (todo s) (blocks s))
| s_wtake s : w s = WTake -> step s (mkSt (mx s) (tx s) Null (buf s) (running s) (m s) WUnlock (todo s) (blocks s))
| s_wunlock s : w s = WUnlock -> step s (mkSt None (tx s) (buf s) (got s) (running s) (m s) WNotify (todo s) (blocks s))
| s_wnotify s : w s = WNotify ->
    step s (mkSt (mx s) (tx s) (buf s) (got s) (running s) (match wake_main (m s) with Some p => p | None => m s end)
      (match got s with Finish => WFlag | _ => WWork end) (todo s) (blocks s))
| s_wwork s : w s = WWork -> step s (mkSt (mx s) (tx s) (buf s) (got s) (running s) (m s) WLock (todo s) (S (blocks s)))
| s_wflag s : w s = WFlag -> step s (mkSt (mx s) (tx s) (buf s) (got s) false (m s) WEnd (todo s) (blocks s))
| s_wend s : w s = WEnd -> step s (mkSt (mx s) (tx s) (buf s) (got s) (running s) (match m s with TSleep => TLock | p => p end) Gone (todo s) (blocks s)).

(** The states of a buffer to which [k] blocks are handed over and that is then closed. *)
Inductive reach (k : nat) : st -> Prop :=
| reach_start : reach k (start k)
| reach_step s s' : reach k s -> step s s' -> reach k s'.
(** Nothing can happen any more. *)
Definition stuck (s : st) : Prop := forall s', ~ step s s'.
(** The destructor has passed line 597. *)
Definition late (p : mpc) : bool := match p with CNotify | TLock | TTest | TWait | TSleep | Closed => true | _ => false end.
