(** The string buffer, src/trident/tree/stringbuffer.cpp.

    A buffer of the factory is an address; its contents are the bytes written so far, so
    [writingCurrentBufferSize] is the length of the contents of [currentBuffer].  Addresses are
    never used again: reading through a pointer to a released buffer gives [None], like every
    other undefined behaviour.  Positions are integers: the product in line 444, which overflows
    in [int] from 2 GB on and wraps around to the right value, is not modelled.
    LZ4 is the pair of functions [lz] and [unlz]; the background thread runs between the steps of the
    main thread as the schedule [sched] says. *)
From Verif Require Export TableModel.
Local Open Scope Z_scope.

Notation "'zlength' l" := (Z.of_nat (length l)) (at level 10, l at level 9).

(** ** Lists *)
Fixpoint upd {A} (l : list A) (i : nat) (x : A) : list A :=
  match l, i with
  | [], _ => []
  | _ :: r, O => x :: r
  | y :: r, S j => y :: upd r j x
  end.
(** memcpy from [m + off], [n] bytes. *)
Definition slice (m : list Z) (off n : Z) : option (list Z) :=
  if (0 <=? off) && (0 <=? n) && (off + n <=? zlength m) then Some (firstn (Z.to_nat n) (skipn (Z.to_nat off) m)) else None.
(** Utils::commonPrefix (kognac). *)
Fixpoint common (a b : list Z) : Z :=
  match a, b with
  | x :: a, y :: b => if x =? y then 1 + common a b else 0
  | _, _ => 0
  end.
(** Utils::encode_vint2, decode_vint2 (kognac): as encode_vlong2, at most 5 bytes. *)
Definition enc_vint2 (v : Z) : list Z := encv 5 v.
Definition dec_vint2 (m : list Z) (p : Z) : option (Z * Z) := decv 5 m p.

(** ** State, stringbuffer.h 53-102 *)
Inductive thr := Idle | Taken (a : nat) (size : Z) | Sized (bytes : list Z).
Record bg := mkBg { b_sizes : list Z; b_file : list Z; b_slot : option (nat * Z); b_th : thr; b_tick : nat }.
Record cache := mkCa { c_blocks : list (option nat); c_cv : list (Z * Z); c_first : Z; c_last : Z; c_elems : Z }.
Record wr := mkWr { w_cur : nat; w_posBase : Z; w_sizeBase : Z; w_entries : Z; w_matched : Z }.
Record sb := mkSb { s_mem : list (option (list Z)); s_cache : cache; s_bg : bg; s_wr : wr; s_usize : Z }.

Definition set_cache (s : sb) (c : cache) : sb := mkSb (s_mem s) c (s_bg s) (s_wr s) (s_usize s).
Definition set_bg (s : sb) (b : bg) : sb := mkSb (s_mem s) (s_cache s) b (s_wr s) (s_usize s).
Definition set_wr (s : sb) (w : wr) : sb := mkSb (s_mem s) (s_cache s) (s_bg s) w (s_usize s).
Definition set_mem (s : sb) (m : list (option (list Z))) : sb := mkSb m (s_cache s) (s_bg s) (s_wr s) (s_usize s).

(** *p for a pointer [p] to the beginning of a buffer. *)
Definition deref (m : list (option (list Z))) (a : nat) : option (list Z) :=
  match nth_error m a with Some (Some c) => Some c | _ => None end.

Section StringBuffer.
(** SB_BLOCK_SIZE (consts.h 93) and maxElementsInCache (lines 40-41: at least 5). *)
Variables B cap : Z.
Variable readOnly : bool.
(** LZ4_compress_HC, and LZ4_decompress_safe with the capacity of the output. *)
Variable lz : list Z -> list Z.
Variable unlz : list Z -> Z -> option (list Z).
(** How many steps the background thread makes at the n-th point at which the main thread looks at
    what they share. *)
Variable sched : nat -> nat.

(** ** The background thread, lines 175-225, compressBlocks: take the buffer (181-190), compress it
    and announce its end in the file (197-214), write it (216-220). *)
Definition thr_step (m : list (option (list Z))) (b : bg) : option bg :=
  match b_th b with
  | Idle =>
    match b_slot b with
    | None => Some b
    | Some (a, n) => Some (mkBg (b_sizes b) (b_file b) None (Taken a n) (b_tick b))
    end
  | Taken a n =>
    do c <- deref m a;
    do c <- slice c 0 n;
    let cs := lz c in
    Some (mkBg (b_sizes b ++ [last (b_sizes b) 0 + zlength cs]) (b_file b) (b_slot b) (Sized cs) (b_tick b))
  | Sized cs => Some (mkBg (b_sizes b) (b_file b ++ cs) (b_slot b) Idle (b_tick b))
  end.
Fixpoint thr_steps (k : nat) (m : list (option (list Z))) (b : bg) : option bg :=
  match k with
  | O => Some b
  | S k => do b <- thr_step m b; thr_steps k m b
  end.
(** A point at which the background thread may have made progress. *)
Definition sync (s : sb) : option sb :=
  let b := s_bg s in
  do b <- thr_steps (sched (b_tick b)) (s_mem s) (mkBg (b_sizes b) (b_file b) (b_slot b) (b_th b) (S (b_tick b)));
  Some (set_bg s b).
(** Lines 328-331: wait until the slot is empty, for which the thread needs at most three steps. *)
Fixpoint wait (fuel : nat) (s : sb) : option sb :=
  match b_slot (s_bg s) with
  | None => Some s
  | Some _ =>
    match fuel with
    | O => None
    | S f => do b <- thr_step (s_mem s) (s_bg s); wait f (set_bg s b)
    end
  end.

(** ** The cache *)
Definition cvget (c : cache) (i : Z) : option (Z * Z) := if 0 <=? i then nth_error (c_cv c) (Z.to_nat i) else None.
Definition set_cv (c : cache) (cv : list (Z * Z)) : cache := mkCa (c_blocks c) cv (c_first c) (c_last c) (c_elems c).
(** cacheVector[i].first = x; cacheVector[i].second = x. *)
Definition set_prev (c : cache) (i x : Z) : option cache :=
  do (_, n) <- cvget c i; Some (set_cv c (upd (c_cv c) (Z.to_nat i) (x, n))).
Definition set_next (c : cache) (i x : Z) : option cache :=
  do (p, _) <- cvget c i; Some (set_cv c (upd (c_cv c) (Z.to_nat i) (p, x))).
Definition set_ends (c : cache) (f l : Z) : cache := mkCa (c_blocks c) (c_cv c) f l (c_elems c).

(** Lines 104-108 and 124-129: the first block leaves the list.  If it was the only one the code writes to
    cacheVector[-1]. *)
Definition pop_first (c : cache) : option (Z * cache) :=
  let i := c_first c in
  do (_, nx) <- cvget c i;
  do c <- set_prev (set_ends c nx (c_last c)) nx (-1);
  Some (i, c).
(** Lines 114-121 (and 158-161): the block [i] becomes the last one. *)
Definition push_last (c : cache) (i : Z) : option cache :=
  do c <- (if negb (c_last c =? -1) then set_next c (c_last c) i else Some c);
  do c <- set_prev c i (c_last c);
  do c <- set_next c i (-1);
  Some (set_ends c (if c_first c =? -1 then i else c_first c) i).
(** Lines 110-130: the last three blocks stay.  blocks.size() is unsigned, but there are at least [cap] blocks when
    the code comes here, and fewer than 2^31. *)
Definition protected (c : cache) (i : Z) : bool := negb readOnly && (zlength (c_blocks c) - 3 <=? i).
Fixpoint evict_loop (fuel : nat) (i : Z) (c : cache) : option (Z * cache) :=
  match fuel with
  | O => None
  | S f =>
    if protected c i then
      do c <- push_last c i;
      do (i, c) <- pop_first c;
      evict_loop f i c
    else Some (i, c)
  end.
(** Lines 101-135. *)
Definition evict (s : sb) : option sb :=
  do (i, c) <- pop_first (s_cache s);
  do (i, c) <- evict_loop (S (length (c_blocks c))) i c;
  do s <- sync s;
  do a <- (do b <- nth_error (c_blocks c) (Z.to_nat i); b);
  Some (set_cache (set_mem s (upd (s_mem s) a None))
    (mkCa (upd (c_blocks c) (Z.to_nat i) None) (c_cv c) (c_first c) (c_last c) (c_elems c - 1))).
(** Lines 94-173, addCache. *)
Definition add_cache (idx : Z) (s : sb) : option sb :=
  if idx =? c_last (s_cache s) then Some s else
  do s <- (if c_elems (s_cache s) =? cap then evict s else Some s);
  let c := s_cache s in
  do c <- (if idx =? zlength (c_cv c) then
             if c_last c =? -1 then Some (set_ends (set_cv c (c_cv c ++ [(-1, -1)])) 0 0)
             else
               let cv := c_cv c ++ [(c_last c, -1)] in
               do c <- set_next (set_cv c cv) (c_last c) (zlength cv - 1);
               Some (set_ends c (c_first c) (zlength cv - 1))
           else
             if c_last c =? -1 then
               do c <- set_prev c idx (-1);
               do c <- set_next c idx (-1);
               Some (set_ends c idx idx)
             else push_last c idx);
  Some (set_cache s (mkCa (c_blocks c) (c_cv c) (c_first c) (c_last c) (c_elems c + 1))).

(** Lines 349-401, uncompressBlock.  If the decompression fails the code goes on with the buffer as it is: no
    byte of it is known. *)
Definition uncompress (b : Z) (s : sb) : option sb :=
  do s <- sync s;
  let z := b_sizes (s_bg s) in
  do start <- (if 0 <? b then nth_error z (Z.to_nat (b - 1)) else Some 0);
  do fin <- nth_error z (Z.to_nat b);
  do bytes <- slice (b_file (s_bg s)) start (fin - start);
  do s <- sync s;
  let size := if b =? zlength (b_sizes (s_bg s)) - 1 then s_usize s mod B else B in
  let content := match unlz bytes size with Some c => c | None => [] end in
  let c := s_cache s in
  Some (set_cache (set_mem s (s_mem s ++ [Some content]))
    (mkCa (upd (c_blocks c) (Z.to_nat b) (Some (length (s_mem s)))) (c_cv c) (c_first c) (c_last c) (c_elems c))).

(** Lines 491-521, getBlock: the pointer. *)
Definition get_block (i : Z) (s : sb) : option (nat * sb) :=
  let c := s_cache s in
  do p <- nth_error (c_blocks c) (Z.to_nat i);
  match p with
  | None =>
    do s <- add_cache i s;
    do s <- uncompress i s;
    do a <- (do b <- nth_error (c_blocks (s_cache s)) (Z.to_nat i); b);
    Some (a, s)
  | Some a =>
    if i =? c_last c then Some (a, s) else
    do (prev, succ) <- cvget c i;
    do c <- (if negb (prev =? -1) then set_next c prev succ else Some (set_ends c succ (c_last c)));
    do c <- (if negb (succ =? -1) then set_prev c succ prev else Some c);
    do c <- set_next c (c_last c) i;
    do c <- set_prev c i (c_last c);
    do c <- set_next c i (-1);
    Some (a, set_cache s (set_ends c (c_first c) i))
  end.

(** ** Writing *)
Definition wpos (s : sb) : option Z := do c <- deref (s_mem s) (w_cur (s_wr s)); Some (zlength c).
(** Assignments to currentBuffer[writingCurrentBufferSize++].  The code counts some of the bytes in
    uncompressedSize only at the end of append (line 320); nothing reads it before. *)
Definition push (bs : list Z) (s : sb) : option sb :=
  do c <- deref (s_mem s) (w_cur (s_wr s));
  if zlength c + zlength bs <=? B then
    Some (mkSb (upd (s_mem s) (w_cur (s_wr s)) (Some (c ++ bs))) (s_cache s) (s_bg s) (s_wr s) (s_usize s + zlength bs))
  else None.

(** Lines 327-347, compressLastBlock. *)
Definition compress_last (s : sb) : option sb :=
  do s <- sync s;
  do s <- wait 3 s;
  do p <- wpos s;
  let b := s_bg s in
  let s := set_bg s (mkBg (b_sizes b) (b_file b) (Some (w_cur (s_wr s), p)) (b_th b) (b_tick b)) in
  do s <- sync s;
  do s <- add_cache (zlength (c_blocks (s_cache s))) s;
  let c := s_cache s in
  let w := s_wr s in
  let a := length (s_mem s) in
  Some (mkSb (s_mem s ++ [Some []])
    (mkCa (c_blocks c ++ [Some a]) (c_cv c) (c_first c) (c_last c) (c_elems c))
    (s_bg s) (mkWr a (w_posBase w) 0 0 (w_matched w)) (s_usize s)).

(** Lines 246-276, writeVInt. *)
Definition write_vint (n : Z) (s : sb) : option sb :=
  do p <- wpos s;
  let v := enc_vint2 n in
  let rem := B - p in
  if (rem <? 4) && (rem <? zlength v) then
    if 4 <? zlength v then None else
    do s <- push (firstn (Z.to_nat rem) v) s;
    do s <- compress_last s;
    push (skipn (Z.to_nat rem) v) s
  else push v s.

(** Lines 233-244, calculatePrefixWithBaseEntry. *)
Definition calc_prefix (orig : nat) (string : list Z) (s : sb) : option Z :=
  let w := s_wr s in
  if (0 <? zlength string) && (w_entries w <? 1024) then
    do base <- (if 0 <? w_sizeBase w then do c <- deref (s_mem s) orig; slice c (w_posBase w) (w_sizeBase w) else Some []);
    let n := common base string in
    if (4 <? n) && (w_matched w <=? n) then Some n else Some 0
  else Some 0.

(** Lines 305-320: the bytes of the string. *)
Definition write_bytes (bs : list Z) (s : sb) : option sb :=
  do p <- wpos s;
  let rem := B - p in
  if zlength bs <=? rem then push bs s
  else
    do s <- push (firstn (Z.to_nat rem) bs) s;
    do s <- compress_last s;
    push (skipn (Z.to_nat rem) bs) s.

(** Lines 227-231 and 278-321, append. *)
Definition append (string : list Z) (s : sb) : option sb :=
  let orig := w_cur (s_wr s) in
  do s <- write_vint (zlength string) s;
  do p <- wpos s;
  do s <- (if B - p =? 0 then compress_last s else Some s);
  do n <- calc_prefix orig string s;
  if n =? 0 then
    do s <- push [0] s;
    do p <- wpos s;
    write_bytes string (set_wr s (mkWr (w_cur (s_wr s)) p (zlength string) 0 0))
  else
    do s <- push [1] s;
    do s <- write_vint (w_posBase (s_wr s)) s;
    do s <- write_vint n s;
    let w := s_wr s in
    write_bytes (skipn (Z.to_nat n) string) (set_wr s (mkWr (w_cur w) (w_posBase w) (w_sizeBase w) (w_entries w + 1) n)).

(** ** Reading *)
(** blockId, block and offset; [None] is the null pointer. *)
Definition rpos := (Z * option nat * Z)%type.
Definition bytes_at (s : sb) (p : option nat) : option (list Z) := do a <- p; deref (s_mem s) a.

(** Lines 403-437, getVInt.  Bytes of [supportBuffer] that the current buffer does not have are not known. *)
Definition get_vint (r : rpos) (s : sb) : option (Z * rpos * sb) :=
  let '(i, p, off) := r in
  do c <- bytes_at s p;
  if B - off <? 4 then
    let head := skipn (Z.to_nat off) c in
    do (support, next, s) <-
      (if i <? zlength (c_blocks (s_cache s)) - 1 then
         do (a, s) <- get_block (i + 1) s;
         do d <- deref (s_mem s) a;
         Some (head ++ firstn (4 - length head) d, Some a, s)
       else Some (head, None, s));
    do (v, k) <- dec_vint2 support 0;
    if B <=? off + k then Some (v, (i + 1, next, off + k - B), s) else Some (v, (i, p, off + k), s)
  else
    do (v, off) <- dec_vint2 c off;
    Some (v, (i, p, off), s).

(** stringbuffer.h 111-120, getFlag. *)
Definition get_flag (r : rpos) (s : sb) : option (Z * rpos * sb) :=
  let '(i, p, off) := r in
  if off <? B then
    do c <- bytes_at s p;
    do f <- getb c off;
    Some (f, (i, p, off + 1), s)
  else
    do (a, s) <- get_block (i + 1) s;
    do c <- deref (s_mem s) a;
    do f <- getb c 0;
    Some (f, (i + 1, Some a, 1), s).

(** memcpy from a pointer to a block; no byte is read if [n] is 0. *)
Definition copy (s : sb) (p : option nat) (off n : Z) : option (list Z) :=
  if n =? 0 then Some [] else do c <- bytes_at s p; slice c off n.

(** Lines 439-483, get: the bytes that are copied to outputBuffer. *)
Definition get (pos : Z) (s : sb) : option (list Z * sb) :=
  let i0 := pos / B in
  do (a, s) <- get_block i0 s;
  do (size, r, s) <- get_vint (i0, Some a, pos - i0 * B) s;
  do (flag, r, s) <- get_flag r s;
  do (pre, sizeToCopy, r, s) <-
    (if flag =? 1 then
       do (posPrefix, r, s) <- get_vint r s;
       do (sizePrefix, r, s) <- get_vint r s;
       let '(i, p, off) := r in
       if negb (i0 =? i) then
         do (a0, s) <- get_block i0 s;
         do pre <- copy s (Some a0) posPrefix sizePrefix;
         do (a, s) <- get_block i s;
         Some (pre, size - sizePrefix, (i, Some a, off), s)
       else
         do pre <- copy s p posPrefix sizePrefix;
         Some (pre, size - sizePrefix, r, s)
     else Some ([], size, r, s));
  let '(i, p, off) := r in
  do (i, p, off, s) <-
    (if off =? B then do (a, s) <- get_block (i + 1) s; Some (i + 1, Some a, 0, s) else Some (i, p, off, s));
  if B <? off + sizeToCopy then
    let rem := B - off in
    do x <- copy s p off rem;
    do (a, s) <- get_block (i + 1) s;
    do y <- copy s (Some a) 0 (sizeToCopy - rem);
    Some (pre ++ x ++ y, s)
  else
    do x <- copy s p off sizeToCopy;
    Some (pre ++ x, s).

(** Utils::prefixEquals (kognac): 0 if the first string is a prefix of the second, else the difference at the first
    byte that differs, 1 if the second string ends before. *)
Fixpoint prefix_equals (a b : list Z) : Z :=
  match a, b with
  | [], _ => 0
  | _ :: _, [] => 1
  | x :: a, y :: b => if x =? y then prefix_equals a b else x - y
  end.
(** Lines 558-562, 565-569 and 574-578: the loops of cmp over the bytes [a] of the block.  The result is the
    difference, or how many bytes were compared. *)
Fixpoint cmp_loop (a b : list Z) (k : Z) : Z + Z :=
  match a, b with
  | x :: a, y :: b => if x =? y then cmp_loop a b (k + 1) else inl (x - y)
  | _, _ => inr k
  end.

(** Lines 523-581, cmp. *)
Definition cmp (pos : Z) (string : list Z) (s : sb) : option (Z * sb) :=
  let i0 := pos / B in
  do (a, s) <- get_block i0 s;
  do (size, r, s) <- get_vint (i0, Some a, pos mod B) s;
  do (flag, r, s) <- get_flag r s;
  do (res, string, size, r, s) <-
    (if flag =? 1 then
       do (posBase, r, s) <- get_vint r s;
       do (sizeBase, r, s) <- get_vint r s;
       let '(i, p, off) := r in
       do q <- (if negb (i0 =? i) then nth_error (c_blocks (s_cache s)) (Z.to_nat i0) else Some p);
       do base <- copy s q posBase sizeBase;
       Some (prefix_equals base string, skipn (Z.to_nat sizeBase) string, size - sizeBase, r, s)
     else Some (0, string, size, r, s));
  if negb (res =? 0) then Some (res, s) else
  let '(i, p, off) := r in
  if off + size <=? B then
    do x <- copy s p off size;
    match cmp_loop x string 0 with
    | inl d => Some (d, s)
    | inr _ => Some (size - zlength string, s)
    end
  else
    let rem := B - off in
    do x <- copy s p off rem;
    match cmp_loop x string 0 with
    | inl d => Some (d, s)
    | inr k =>
      do (a, s) <- get_block (i + 1) s;
      do y <- copy s (Some a) 0 (size - rem);
      match cmp_loop y (skipn (Z.to_nat k) string) k with
      | inl d => Some (d, s)
      | inr _ => Some (size - rem - zlength string + k, s)
      end
    end.
End StringBuffer.

(** ** Opening and closing *)
(** Lines 38-91: a new buffer for writing. *)
Definition sb_new (cap : Z) (sched : nat -> nat) : option sb :=
  add_cache cap false (fun c => c) sched 0
    (mkSb [Some []] (mkCa [Some 0%nat] [] (-1) (-1) 0) (mkBg [] [] None Idle 0) (mkWr 0 0 0 0 0) 0).

(** Lines 583-621, the destructor: sb and sb.idx.  What the thread has to do is done before it ends; that the
    destructor waits for this, and only for this, is modelled in StrCloseModel. *)
Definition sb_close (B cap : Z) (lz : list Z -> list Z) (sched : nat -> nat) (s : sb) : option (list Z * list Z) :=
  do s <- (if 0 <? s_usize s mod B then compress_last cap false lz sched s else Some s);
  do b <- thr_steps lz 6 (s_mem s) (s_bg s);
  Some (b_file b, enc 8 (s_usize s) ++ flat_map (enc 8) (b_sizes b)).

(** Lines 68-81. *)
Fixpoint read_sizes (fuel : nat) (m : list Z) (p : Z) : list Z :=
  match fuel with
  | O => []
  | S f => match rdn 8 m p with Some v => v :: read_sizes f m (p + 8) | None => [] end
  end.
Definition sb_open (file idx : list Z) : option sb :=
  do u <- rdn 8 idx 0;
  let z := read_sizes (length idx) idx 8 in
  Some (mkSb [] (mkCa (map (fun _ => None) z) (map (fun _ => (0, 0)) z) (-1) (-1) 0)
    (mkBg z file None Idle 0) (mkWr 0 0 0 0 0) u).
