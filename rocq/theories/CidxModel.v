(** The cache of ranges of pairs: CacheIdx (src/trident/kb/cacheidx.cpp, include/trident/kb/cacheidx.h)
    and CacheItr (src/trident/iterators/cacheitr.cpp). *)
From Coq Require Export ZArith List Lia Bool.
Export ListNotations.
From Verif Require Export ItrModel.
Local Open Scope Z_scope.

(** cacheidx.h 31-47: struct CacheBlock and its operator<.  Positions in the vector of pairs are natural
    numbers, keys are integers. *)
Record block := mkB { b_sk : Z; b_ek : Z; b_sa : nat; b_ea : nat }.
Definition blt (a b : block) : bool := if b_sk a =? b_sk b then b_ek b <? b_ek a else b_sk a <? b_sk b.
Definition pairs := list (Z * Z).

(** cacheidx.h 56-60: the map from keys to blocks and pairs, as a list of its entries.  The pointers are
    the vectors themselves.  The key UINT64_MAX, which the hash map reserves, is not used. *)
Definition cache := list (Z * (list block * pairs)).
(** cacheidx.cpp 27-36, getIndex. *)
Fixpoint getIndex (c : cache) (key : Z) : option (list block * pairs) :=
  match c with
  | [] => None
  | (k, e) :: t => if k =? key then Some e else getIndex t key
  end.
(** keyMap.insert for a new key, or the change of the entry of a key that is there. *)
Fixpoint setIndex (c : cache) (key : Z) (e : list block * pairs) : cache :=
  match c with
  | [] => [(key, e)]
  | (k, x) :: t => if k =? key then (k, e) :: t else (k, x) :: setIndex t key e
  end.
(** cacheidx.cpp 69-71: the pairs of a block, each read with at(), which throws out of range. *)
Fixpoint copyPairs (n : nat) (ps : pairs) (i : nat) : option pairs :=
  match n with
  | O => Some []
  | S n' => do x <- nth_error ps i; do r <- copyPairs n' ps (S i); Some (x :: r)
  end.
(** cacheidx.cpp 65-75: each new block is added to the existing ones, with its pairs behind the existing
    pairs. *)
Fixpoint addBlocks (new : list block) (ps : pairs) (e : list block * pairs) : option (list block * pairs) :=
  match new with
  | [] => Some e
  | b :: t =>
    do x <- copyPairs (b_ea b - b_sa b) ps (b_sa b);
    let all := snd e ++ x in
    addBlocks t ps (fst e ++ [mkB (b_sk b) (b_ek b) (length (snd e)) (length all)], all)
  end.
(** cacheidx.cpp 38-86, storeIdx; [srt] is std::sort with operator<. *)
Definition storeIdx (srt : list block -> list block) (c : cache) (key : Z) (bs : list block) (ps : pairs) : option cache :=
  match getIndex c key with
  | Some e => do e' <- addBlocks bs ps e; Some (setIndex c key (srt (fst e'), snd e'))
  | None => Some (setIndex c key (bs, ps))
  end.

(** std::lower_bound with operator<, on a sorted vector: the number of blocks before the first one that is
    not smaller. *)
Fixpoint lower_bound (bs : list block) (b : block) : nat :=
  match bs with
  | [] => O
  | x :: t => if blt x b then S (lower_bound t b) else O
  end.
(** cacheitr.cpp 146-166, searchBlock (a NULL vector is in gotoFirstTerm below); the constructor sets endKey to 0.  [None] when the end of the
    vector is dereferenced. *)
Definition searchBlock (bs : list block) (v : Z) : option (option block) :=
  let i := lower_bound bs (mkB v 0 0 0) in
  do x <- nth_error bs i;
  if negb (Nat.eqb i 0) || (v =? b_sk x) then
    do y <- (if negb (v =? b_sk x) then nth_error bs (i - 1) else Some x);
    Some (if v <=? b_ek y then Some y else None)
  else Some None.

(** cacheitr.h 36-54: the fields of CacheItr.  [ci_p] is 0 for NULL, 1 for the existing pairs and 2 for the
    new ones. *)
Record citr := mkC {
  ci_new : pairs; ci_blocks : list block; ci_start : nat; ci_last : Z;
  ci_exist : option (list block * pairs);
  ci_p : Z; ci_idx : nat; ci_end : nat; ci_v1 : Z; ci_v2 : Z; ci_group : bool; ci_hnc : bool; ci_n : bool }.
(** cacheitr.cpp 27-59, init. *)
Definition ci_init (c : cache) (key : Z) : citr := mkC [] [] 0 (-2) (getIndex c key) 0 0 0 0 0 false true true.
(** The vector that p points to. *)
Definition ci_vec (s : citr) : option pairs :=
  if ci_p s =? 1 then do e <- ci_exist s; Some (snd e) else if ci_p s =? 2 then Some (ci_new s) else None.
(** cacheitr.cpp 69-85, hasNext; constraint2 is -1, [q] below is not asked for a second value.  A NULL p or a
    position out of range is [None]. *)
Definition ci_hasNext (s : citr) : option (bool * citr) :=
  if ci_hnc s then Some (ci_n s, s)
  else
    do n <- (if ci_group s then
               if (ci_end s <=? ci_idx s)%nat then Some false
               else do p <- ci_vec s; do x <- nth_error p (ci_idx s); Some (fst x =? ci_v1 s)
             else Some false);
    Some (n, mkC (ci_new s) (ci_blocks s) (ci_start s) (ci_last s) (ci_exist s) (ci_p s) (ci_idx s) (ci_end s) (ci_v1 s) (ci_v2 s) (ci_group s) true n).
(** cacheitr.cpp 87-92, next. *)
Definition ci_next (s : citr) : option citr :=
  do p <- ci_vec s; do x <- nth_error p (ci_idx s);
  Some (mkC (ci_new s) (ci_blocks s) (ci_start s) (ci_last s) (ci_exist s) (ci_p s) (S (ci_idx s)) (ci_end s) (ci_v1 s) (snd x) (ci_group s) false (ci_n s)).
(** cacheitr.cpp 176-178: the loop that skips smaller first values. *)
Fixpoint skip_less (fuel : nat) (p : pairs) (i e : nat) (c1 : Z) : option nat :=
  if (i <? e)%nat then
    do x <- nth_error p i;
    if fst x <? c1 then match fuel with O => None | S f => skip_less f p (S i) e c1 end else Some i
  else Some i.
(** cacheitr.cpp 189-193 and 99-103: the block of the new pairs from startDelta on. *)
Definition delta_block (new : pairs) (start : nat) : option block :=
  do a <- nth_error new start; do z <- nth_error new (length new - 1);
  Some (mkB (fst a) (fst z) start (length new)).
(** cacheitr.cpp 168-220, gotoFirstTerm.  [rows c1] are the second values that q's iterator delivers for c1. *)
Definition gotoFirstTerm (rows : Z -> list Z) (s : citr) (c1 : Z) : option (bool * citr) :=
  do found <- (match ci_exist s with Some e => searchBlock (fst e) c1 | None => Some None end);
  match found with
  | Some b =>
    do e <- ci_exist s;
    let p := snd e in
    do i <- skip_less (length p) p (b_sa b + Z.to_nat (c1 - b_sk b)) (b_ea b) c1;
    do x <- nth_error p i;
    Some (true, mkC (ci_new s) (ci_blocks s) (ci_start s) (ci_last s) (ci_exist s) 1 i (b_ea b) c1 (snd x) true true (fst x =? c1))
  | None =>
    do d <- (if negb (c1 =? ci_last s + 1) && negb (Nat.eqb (length (ci_new s)) (ci_start s)) then
               do b <- delta_block (ci_new s) (ci_start s); Some (ci_blocks s ++ [b], length (ci_new s))
             else Some (ci_blocks s, ci_start s));
    let idx := length (ci_new s) in
    let new := ci_new s ++ map (pair c1) (rows c1) in
    if negb (Nat.eqb (length new) idx) then
      do x <- nth_error new idx;
      Some (true, mkC new (fst d) (snd d) c1 (ci_exist s) 2 idx (length new) c1 (snd x) true true true)
    else Some (ci_v1 s =? c1, mkC new (fst d) (snd d) (ci_last s) (ci_exist s) (ci_p s) idx (ci_end s) (ci_v1 s) (ci_v2 s) false true false)
  end.
(** cacheitr.cpp 109-135: the loop that removes the duplicates; lastKey and lastEndKey are those of the last block
    that was added. *)
Fixpoint dedup (last : option (Z * Z)) (bs : list block) : list block :=
  match bs with
  | [] => []
  | b :: t =>
    match last with
    | None => b :: dedup (Some (b_sk b, b_ek b)) t
    | Some (k, e) =>
      if negb (b_sk b =? k) then
        if b_sk b <=? e then
          if b_ek b <=? e then dedup last t
          else
            let b' := mkB (e + 1) (b_ek b) (b_sa b + Z.to_nat (e - b_sk b + 1)) (b_ea b) in
            b' :: dedup (Some (b_sk b', b_ek b')) t
        else b :: dedup (Some (b_sk b, b_ek b)) t
      else dedup last t
    end
  end.
(** cacheitr.cpp 94-144, clear: the cache afterwards. *)
Definition ci_clear (srt : list block -> list block) (c : cache) (key : Z) (s : citr) : option cache :=
  if (0 <? length (ci_new s))%nat then
    do bs <- (if negb (Nat.eqb (ci_start s) (length (ci_new s))) then do b <- delta_block (ci_new s) (ci_start s); Some (ci_blocks s ++ [b]) else Some (ci_blocks s));
    storeIdx srt c key (dedup None (srt bs)) (ci_new s)
  else Some c.

(** A user of the iterator: for each first value, it goes there and reads all second values; then the
    iterator is cleared. *)
Fixpoint ci_drain (fuel : nat) (s : citr) : option (list Z * citr) :=
  do (b, s1) <- ci_hasNext s;
  if b then
    match fuel with
    | O => None
    | S f => do s2 <- ci_next s1; do (r, s3) <- ci_drain f s2; Some (ci_v2 s2 :: r, s3)
    end
  else Some ([], s1).
Fixpoint ci_reads (fuel : nat) (rows : Z -> list Z) (s : citr) (cs : list Z) : option (list (list Z) * citr) :=
  match cs with
  | [] => Some ([], s)
  | c1 :: t => do (_, s1) <- gotoFirstTerm rows s c1; do (r, s2) <- ci_drain fuel s1; do (rs, s3) <- ci_reads fuel rows s2 t; Some (r :: rs, s3)
  end.
Definition session (fuel : nat) srt (rows : Z -> Z -> list Z) (c : cache) (key : Z) (cs : list Z) : option (list (list Z) * cache) :=
  do (r, s) <- ci_reads fuel (rows key) (ci_init c key) cs; do c' <- ci_clear srt c key s; Some (r, c').
Fixpoint sessions (fuel : nat) srt rows (c : cache) (l : list (Z * list Z)) : option (list (list (list Z)) * cache) :=
  match l with
  | [] => Some ([], c)
  | (key, cs) :: t => do (r, c1) <- session fuel srt rows c key cs; do (rs, c2) <- sessions fuel srt rows c1 t; Some (r :: rs, c2)
  end.
