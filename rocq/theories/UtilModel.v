(** Utilities: parallel loops and sorting, the memory manager, JSON output. *)
From Coq Require Export ZArith List Bool Lia.
From Verif Require Export ItrModel.
Import ListNotations.
Local Open Scope Z_scope.

(** size_t arithmetic. *)
Definition u64 (v : Z) : Z := v mod 2 ^ 64.

(** ** include/trident/utils/parallel.h *)

(** 150-163, the loop of parallel_for with [k] iterations left: the ranges given to other
    threads, and the final value of currentbegin. *)
Fixpoint pf_loop (k : nat) (cb ce fin delta : Z) : list (Z * Z) * Z :=
  match k with
  | O => ([], cb)
  | S k => if ce <? fin then
             let cb := ce in let ce := u64 (cb + delta) in
             if fin <=? ce then ([], cb)
             else let '(r, b) := pf_loop k cb ce fin delta in ((cb, ce) :: r, b)
           else ([], cb)
  end.
(** 133-168, parallel_for: the ranges on which the body is called; the last one is for the
    calling thread.  The default number of threads (139-147) is not modelled; [nthreads] is at
    least 1 (148). *)
Definition parallel_for (begin fin grainsize : Z) (nthreads : nat) : list (Z * Z) :=
  let delta := Z.max grainsize (u64 (fin - begin + Z.of_nat nthreads - 1) / Z.of_nat nthreads) in
  let '(r, b) := pf_loop nthreads 0 0 fin delta in r ++ [(b, fin)].

Section Sort.
Variable A : Type.
Variable cmp : A -> A -> bool.
Variable stdsort : list A -> list A.       (* std::sort *)

(** std::inplace_merge of two sorted ranges: from the second one only if it is smaller. *)
Fixpoint std_merge (a b : list A) {struct a} : list A :=
  match a with
  | [] => b
  | x :: a' => (fix inner (b : list A) : list A :=
                 match b with
                 | [] => x :: a'
                 | y :: b' => if cmp y x then y :: inner b' else x :: std_merge a' b
                 end) b
  end.
(** 92-105, sort_int; [fuel] bounds the depth (the number of threads is halved).  The two
    halves are disjoint, so the order of the two threads is irrelevant. *)
Fixpoint sort_int (fuel : nat) (l : list A) (nthreads : Z) : list A :=
  match fuel with
  | O => stdsort l
  | S fuel =>
    if (Z.of_nat (length l) <=? 1024) || (nthreads <? 2) then stdsort l
    else let mid := Z.to_nat (Z.quot (Z.of_nat (length l)) 2) in
         std_merge (sort_int fuel (firstn mid l) (Z.quot nthreads 2))
                   (sort_int fuel (skipn mid l) (Z.quot nthreads 2))
  end.
End Sort.

(** ** include/trident/utils/memorymgr.h *)

(** 34-41, MemoryBlock; the element and its slot in the array of its parent are numbers. *)
Record mblock := mkBlk { b_elem : nat; b_parent : nat; b_bytes : Z; b_lock : Z }.
(** 43-51; [m_blocks] has MAX_N_BLOCKS_IN_CACHE slots; [m_dead] lists the elements that were
    deleted, the last one first.  The byte counter is not reduced modulo 2^64. *)
Record mm := mkMM { m_max : Z; m_bytes : Z; m_blocks : list (option mblock);
  m_start : nat; m_end : nat; m_left : Z; m_dead : list mblock }.

(** 70-79, constructor with [n] slots. *)
Definition mm_new (n : nat) (max : Z) : mm := mkMM max 0 (repeat None n) 0 0 (Z.of_nat n) [].

Definition slot (s : mm) (i : nat) : option mblock := nth i (m_blocks s) None.
Fixpoint set_slot (l : list (option mblock)) (i : nat) (b : option mblock) : list (option mblock) :=
  match l, i with [], _ => [] | _ :: l, O => b :: l | x :: l, S i => x :: set_slot l i b end.

(** 87-96, removeBlock; a free slot is a null pointer. *)
Definition mm_removeBlock (i : nat) (s : mm) : option mm :=
  do b <- slot s i;
  Some (mkMM (m_max s) (m_bytes s - b_bytes b) (set_slot (m_blocks s) i None) (m_start s) (m_end s)
          (m_left s + 1) (b :: m_dead s)).
(** 98-105, removeBlockWithoutDeallocation. *)
Definition mm_forget (i : nat) (s : mm) : mm :=
  match slot s i with
  | None => s
  | Some b => mkMM (m_max s) (m_bytes s - b_bytes b) (set_slot (m_blocks s) i None) (m_start s) (m_end s)
                (m_left s + 1) (m_dead s)
  end.
(** 58-66, the search for a victim; it runs forever ([None]) if there is none. *)
Definition victim (b : option mblock) : bool := match b with None => false | Some b => negb (0 <? b_lock b) end.
Fixpoint mm_scan (fuel : nat) (s : mm) (i : nat) : option nat :=
  match fuel with
  | O => None
  | S f => if victim (slot s i) then Some i
           else mm_scan f s (if Nat.eqb (S i) (length (m_blocks s)) then 0%nat else S i)
  end.
(** 53-68, removeOneBlock. *)
Definition mm_removeOne (s : mm) : option mm :=
  if m_left s <? Z.of_nat (length (m_blocks s)) then
    let st := if Nat.eqb (m_start s) (length (m_blocks s)) then 0%nat else m_start s in
    do i <- mm_scan (length (m_blocks s)) s st;
    do s1 <- mm_removeBlock i s;
    Some (mkMM (m_max s1) (m_bytes s1) (m_blocks s1) (S i) (m_end s1) (m_left s1) (m_dead s1))
  else Some s.
(** 81-85, update. *)
Definition mm_update (i : nat) (bytes : Z) (s : mm) : option mm :=
  do b <- slot s i;
  Some (mkMM (m_max s) (m_bytes s - b_bytes b + bytes)
          (set_slot (m_blocks s) i (Some (mkBlk (b_elem b) (b_parent b) bytes (b_lock b))))
          (m_start s) (m_end s) (m_left s) (m_dead s)).
(** 107-117, addLock, isUsed, releaseLock. *)
Definition mm_lock (d : Z) (i : nat) (s : mm) : option mm :=
  do b <- slot s i;
  Some (mkMM (m_max s) (m_bytes s)
          (set_slot (m_blocks s) i (Some (mkBlk (b_elem b) (b_parent b) (b_bytes b) (b_lock b + d))))
          (m_start s) (m_end s) (m_left s) (m_dead s)).
Definition mm_addLock := mm_lock 1.
Definition mm_releaseLock := mm_lock (-1).
Definition mm_isUsed (i : nat) (s : mm) : option bool := do b <- slot s i; Some (0 <? b_lock b).
(** 120-124, making room. *)
Fixpoint mm_evict (fuel : nat) (s : mm) : option mm :=
  if (m_max s <=? m_bytes s) || (m_left s =? 0) then
    match fuel with O => None | S f => do s1 <- mm_removeOne s; mm_evict f s1 end
  else Some s.
(** 130-132, the search for a free slot; it runs forever ([None]) if there is none. *)
Fixpoint mm_find (fuel : nat) (s : mm) (i : nat) : option nat :=
  match fuel with
  | O => None
  | S f => match slot s i with None => Some i | Some _ => mm_find f s (Nat.modulo (S i) (length (m_blocks s))) end
  end.
(** 119-143, add. *)
Definition mm_add (bytes : Z) (elem parent : nat) (s : mm) : option (mm * nat) :=
  do s1 <- (if m_max s <? m_bytes s + bytes then mm_evict (S (length (m_blocks s))) s else Some s);
  let e := if Nat.eqb (m_end s1) (length (m_blocks s1)) then 0%nat else m_end s1 in
  do i <- mm_find (length (m_blocks s1)) s1 e;
  Some (mkMM (m_max s1) (m_bytes s1 + bytes) (set_slot (m_blocks s1) i (Some (mkBlk elem parent bytes 0)))
          (m_start s1) (S i) (m_left s1 - 1) (m_dead s1), i).

(** ** src/trident/utils/json.cpp *)

Notation str := (list Z).      (* bytes 0..255; a char from 128 on is negative *)

(** std::hex and std::setw(4) with fill '0', for a number below 65536. *)
Definition hexdig (d : Z) : Z := if d <? 10 then 48 + d else 87 + d.
Definition hex4 (v : Z) : str := [hexdig (v / 4096 mod 16); hexdig (v / 256 mod 16); hexdig (v / 16 mod 16); hexdig (v mod 16)].
(** 5-16, escape_json; 34 is the quote and 92 the backslash. *)
Definition escape_json (s : str) : str :=
  flat_map (fun c => if (c =? 34) || (c =? 92) || ((0 <=? c) && (c <=? 31))
                     then [92; 117] ++ hex4 c else [c]) s.

(** include/trident/utils/json.h 15-21: values and children (maps, listed by key), listvalues
    and listchildren. *)
Inductive json := Js (vals : list (str * str)) (kids : list (str * json)) (lvals : list str) (lkids : list json).

Definition quoted (s : str) : str := [34] ++ escape_json s ++ [34].
(** A sequence of texts with commas (44) between them. *)
Fixpoint commas (l : list str) : str :=
  match l with [] => [] | [x] => x | x :: t => x ++ [44] ++ commas t end.
Fixpoint all_some {A} (l : list (option A)) : option (list A) :=
  match l with [] => Some [] | x :: t => do a <- x; do r <- all_some t; Some (a :: r) end.
(** 18-67, write; [None] is the exception.  The members are written with " : " (32 58 32)
    between name and value. *)
Fixpoint json_write (j : json) : option str :=
  match j with
  | Js vals kids lvals lkids =>
    match lkids with
    | _ :: _ => match lvals, vals, kids with
                | [], [], [] => do r <- all_some (map json_write lkids); Some ([91] ++ commas r ++ [93])
                | _, _, _ => None
                end
    | [] =>
      match lvals with
      | _ :: _ => match vals, kids with
                  | [], [] => Some ([91] ++ commas (map quoted lvals) ++ [93])
                  | _, _ => None
                  end
      | [] =>
        do r <- all_some (map (fun '(n, c) => do t <- json_write c; Some (quoted n ++ [32; 58; 32] ++ t)) kids);
        Some ([123] ++ commas (map (fun '(n, v) => quoted n ++ [32; 58; 32] ++ quoted v) vals ++ r) ++ [125])
      end
    end
  end.
