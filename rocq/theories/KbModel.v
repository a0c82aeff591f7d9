(** A loaded database: the tree is built from the coordinates of all permutations, and patterns
    are answered from the tables. *)
From Verif Require Export StrategyModel FileModel InserterModel QueryModel ItrModel ArrayModel TreeModel TreeSpec FlatModel.
Local Open Scope Z_scope.

(** ** Merging the coordinates *)

(** include/trident/loader.h 80-105, TreeWriter::addEntry: 23 bytes for each entry. *)
Definition tw_bytes (e : entry) : list Z :=
  enc 8 (e_key e) ++ enc 8 (e_n e) ++ enc 2 (Z.of_nat (e_file e)) ++ enc 4 (e_pos e) ++ [e_strat e mod 256].
Definition tw_file (l : list entry) : list Z := flat_map tw_bytes l.

(** src/trident/kb/loader.cpp 3110-3120, CoordinatesMerger::getFirst: the next entry of a file
    and the rest of it; [None] if fewer than 23 bytes are left. *)
Definition getFirst (f : list Z) : option (entry * list Z) :=
  if Nat.ltb (length f) 23 then None
  else do k <- rd 8 f 0; do n <- rd 8 f 8; do file <- rdn 2 f 16; do pos <- rdn 4 f 18; do st <- getb f 22;
       Some (mkEntry k n (Z.to_nat (to_short file)) (to_int32 pos) (to_char st), skipn 23 f).

(** loader.h 107-148: the six streams; m_el is elspo, ... and [None] if the stream is finished.
    The file of a permutation that is not loaded cannot be opened, so the stream is finished. *)
Record stream := mkStream { m_el : option entry; m_rest : list Z }.
Definition stream_of (f : list Z) : stream :=
  match getFirst f with Some (e, r) => mkStream (Some e) r | None => mkStream None f end.
Definition mstate := nat -> stream.

Definition mg_live (s : mstate) (i : nat) : bool := match m_el (s i) with Some _ => true | None => false end.
Definition mg_key (s : mstate) (i : nat) : Z := match m_el (s i) with Some e => e_key e | None => 0 end.
Definition mg_n (s : mstate) (i : nat) : Z := match m_el (s i) with Some e => e_n e | None => 0 end.

(** value.set(i, ...) and the next element of stream [i]. *)
Definition mg_take (i : nat) (x : mstate * tc) : mstate * tc :=
  let '(s, v) := x in
  match m_el (s i) with
  | Some e => (FileModel.upd s i (stream_of (m_rest (s i))), FileModel.upd v i (Some (mkCoord (e_n e) (e_strat e) (Z.of_nat (e_file e)) (e_pos e))))
  | None => x
  end.
Definition mg_if (i : nat) (k : Z) (x : mstate * tc) : mstate * tc :=
  if mg_live (fst x) i && (mg_key (fst x) i =? k) then mg_take i x else x.
(** Stream [i] and, only if it has the key, stream [j]; [chk] is the assertion that both have
    the same number of elements (3070, 3088, 3101). *)
Definition mg_with (chk : bool) (i j : nat) (k : Z) (x : mstate * tc) : option (mstate * tc) :=
  let s := fst x in
  if mg_live s i && (mg_key s i =? k) then
    if mg_live s j && (mg_key s j =? k) then
      if chk && negb (mg_n s i =? mg_n s j) then None else Some (mg_take i (mg_take j x))
    else Some (mg_take i x)
  else Some x.

(** loader.cpp 3014-3108, CoordinatesMerger::get with ncoordinates = 6 (lines 3046-3107);
    0 spo, 1 ops, 2 pos, 3 sop, 4 osp, 5 pso. *)
Definition mg_get (s : mstate) : option (option (Z * tc * mstate)) :=
  let none : tc := fun _ => None in
  if mg_live s 0 && (negb (mg_live s 1) || (mg_key s 0 <=? mg_key s 1))
       && (negb (mg_live s 2) || (mg_key s 0 <=? mg_key s 2)) then
    let k := mg_key s 0 in
    do x <- mg_with false 1 4 k (mg_if 3 k (s, none));
    do x <- mg_with true 2 5 k x;
    let x := mg_take 0 x in Some (Some (k, snd x, fst x))
  else if mg_live s 1 && (negb (mg_live s 2) || (mg_key s 1 <=? mg_key s 2)) then
    let k := mg_key s 1 in
    do x <- mg_with true 2 5 k (mg_if 4 k (s, none));
    let x := mg_take 1 x in Some (Some (k, snd x, fst x))
  else if mg_live s 2 then
    let k := mg_key s 2 in
    do x <- mg_with true 2 5 k (s, none); Some (Some (k, snd x, fst x))
  else Some None.

(** loader.cpp 2914-2950, mergeTermCoordinates.  Simplification: the pairs reach the tree
    (2900-2911, processTermCoordinates) in the order in which they are added to the buffers. *)
Fixpoint mg_all (fuel : nat) (s : mstate) : option (list (Z * tc)) :=
  match fuel with
  | O => None
  | S f =>
    do r <- mg_get s;
    match r with
    | None => Some []
    | Some (k, v, s1) => do l <- mg_all f s1; Some ((k, v) :: l)
    end
  end.

(** ** The list of terms of a permutation *)

(** include/trident/iterators/termitr.h 32-53: currentfile, the bytes of the .idx file that
    buffer and endbuffer point to, their offsets, currentMark and key.  The number of files is
    S (t_last t).  Left out: cachedCount, mark and reset. *)
Record titr := mkTitr { ti_cur : nat; ti_ix : list Z; ti_off : Z; ti_end : Z; ti_mark : Z; ti_key : Z }.

(** tableshandler.cpp 35-53 and 97-130: begin and end of the entries of an .idx file; a file that
    does not exist throws, also in doesFileHaveCoordinates. *)
Definition ti_open (t : ts) (f : nat) : option (list Z * Z * Z) :=
  do ix <- t_idx t f; do n <- rd 8 ix 0; Some (ix, 8, 8 + 11 * n).

(** src/trident/iterators/termitr.cpp 28-41, init.  The key is not initialised. *)
Definition ti_init (t : ts) : option titr :=
  do (ix, b, e) <- ti_open t 0; Some (mkTitr 0 ix b e (-1) 0).

(** termitr.cpp 43-59, hasNext (doesFileHaveCoordinates throws or is true). *)
Definition ti_hasNext (t : ts) (s : titr) : option (bool * titr) :=
  if ti_off s =? ti_end s then
    let f := S (ti_cur s) in
    if Nat.leb (S (t_last t)) f then Some (false, mkTitr f (ti_ix s) (ti_off s) (ti_end s) (-1) (ti_key s))
    else do (ix, b, e) <- ti_open t f; Some (true, mkTitr f ix b e (-1) (ti_key s))
  else Some (true, s).

(** termitr.cpp 61-68, next. *)
Definition ti_next (s : titr) : option titr :=
  do k <- rdn 5 (ti_ix s) (ti_off s + 5);
  Some (mkTitr (ti_cur s) (ti_ix s) (ti_off s + 11) (ti_end s) (ti_mark s + 1) k).

(** termitr.cpp 70-72, getCurrentStrat. *)
Definition ti_strat (s : titr) : option Z := do b <- getb (ti_ix s) (ti_off s - 1); Some (to_char b).

(** termitr.cpp 140-160: the binary search.  Line 146 reads the key with eight bytes, not five:
    after the last entry these are bytes that follow the file in memory, [pad].  The result is
    (start - buffer) / 11 and the new buffer. *)
Fixpoint ti_search (fuel : nat) (m : list Z) (buf start end_ k : Z) : option (Z * Z) :=
  if start <? end_ then
    match fuel with
    | O => None
    | S f =>
      let nels := (end_ - start) / 11 in
      let middle := start + nels / 2 * 11 in
      do x <- rd 8 m (middle + 5);
      if x <? k then ti_search f m buf (middle + 11) end_ k
      else if k <? x then ti_search f m buf start middle k
      else Some ((middle - buf) / 11, middle)
    end
  else Some ((start - buf) / 11, end_).

(** termitr.cpp 106-161, gotoKey. *)
Fixpoint ti_goto (fuel : nat) (pad : list Z) (t : ts) (k : Z) (s : titr) : option titr :=
  match fuel with
  | O => None
  | S f =>
    do last <- rdn 5 (ti_ix s) (ti_end s - 6);
    if last <? k then
      if Nat.ltb (ti_cur s) (t_last t) then
        do (ix, b, e) <- ti_open t (S (ti_cur s));
        ti_goto f pad t k (mkTitr (S (ti_cur s)) ix b e (-1) (ti_key s))
      else Some (mkTitr (ti_cur s) (ti_ix s) (ti_end s) (ti_end s) (ti_mark s + (ti_end s - ti_off s) / 11) last)
    else
      do (d, b) <- ti_search fuel (ti_ix s ++ pad) (ti_off s) (ti_off s) (ti_end s) k;
      Some (mkTitr (ti_cur s) (ti_ix s) b (ti_end s) (ti_mark s + d) (ti_key s))
  end.

(** ** The database *)

(** The tree, or the flat tree if its file exists and the database is opened for reading
    (src/trident/kb/kb.cpp 164-169; the graph is a labelled one). *)
Inductive root := RTree (t : tree (list (nat * coord))) | RFlat (raw : list Z).

(** The tree; files[perm], which is NULL if no table was stored (src/trident/kb/kb.cpp 236-254);
    present[perm] (kb.cpp 85-99); d_pad are the bytes that follow a mapped file in memory.
    Updates are not part of it (see C06). *)
Record db := mkDb { d_root : root; d_files : nat -> option ts; d_present : nat -> bool; d_pad : list Z }.

(** Root::get: the coordinates of a term, [Some None] if it has none. *)
Definition kb_lookup (d : db) (k : Z) : option (option tc) :=
  match d_root d with
  | RTree t => do r <- get t k; Some (match r with Some l => Some (tc_of l) | None => None end)
  | RFlat raw => do v <- fl_get Labelled raw (d_pad d) k; Some (Some v)
  end.

(** src/trident/kb/querier.cpp 993-1013, getIterator with coordinates, and include/trident/kb/querier.h
    551-562, getPairIterator.  Aggregated tables (1003-1008) are not modelled.  When v1 is -1,
    initNewIterator (646-687) ignores v2 and [constrain]. *)
Definition kb_open (d : db) (perm : nat) (k : Z) (file : nat) (mark strat v1 v2 : Z) : option pitr :=
  do t <- d_files d perm;
  do (p, e) <- ts_getTable t file mark;
  do r <- getBinaryTable strat;
  if isAggregated strat then None
  else tbl_open r (t_file t file ++ d_pad d) k v1 v2 p e.

(** querier.cpp 898-913, getKBTermList, for a permutation below 3 or with enforcePerm; NULL if there
    is no storage. *)
Definition kb_terms (d : db) (perm : nat) : option (option titr) :=
  match d_files d perm with None => Some None | Some t => do i <- ti_init t; Some (Some i) end.

(** ** ScanItr *)

(** include/trident/iterators/scanitr.h 39-57.  Left out: mark and reset. *)
Record sc_st := mkSc { sc_1 : option titr; sc_2 : option titr; sc_cur : option pitr; sc_rev : option pitr;
  sc_ign : bool; sc_hnc : bool; sc_hn : bool; sc_key : Z }.

(** Advance a list of terms. *)
Definition ti_step (t : ts) (i : titr) : option (option titr) :=
  do (b, i1) <- ti_hasNext t i; if b then do i2 <- ti_next i1; Some (Some i2) else Some None.

(** src/trident/iterators/scanitr.cpp 33-56, init.  For a permutation below 3 without storage,
    files[idx - 3] is outside of the array. *)
Definition sc_init (d : db) (idx : nat) : option sc_st :=
  do i1 <- kb_terms d idx;
  match i1, Nat.leb idx 2 with
  | Some _, true => Some (mkSc i1 None None None false false false 0)
  | None, true => None
  | _, false =>
    do i2 <- kb_terms d (idx - 3);
    do i1 <- (match i1, d_files d idx with Some i, Some t => ti_step t i | _, _ => Some None end);
    Some (mkSc i1 i2 None None false false false 0)
  end.

(** scanitr.cpp 101-132: the next key. *)
Definition sc_move (d : db) (idx : nat) (s : sc_st) : option (bool * sc_st) :=
  match sc_2 s with
  | Some i2 =>
    do t2 <- d_files d (idx - 3);
    do (b, i2) <- ti_hasNext t2 i2;
    if b then
      do i2 <- ti_next i2;
      do i1 <- (match sc_1 s with
                | Some i1 => if ti_key i1 <? ti_key i2 then do t1 <- d_files d idx; ti_step t1 i1 else Some (Some i1)
                | None => Some None
                end);
      Some (true, mkSc i1 (Some i2) (sc_cur s) (sc_rev s) (sc_ign s) true true (sc_key s))
    else Some (false, mkSc (sc_1 s) (Some i2) (sc_cur s) (sc_rev s) (sc_ign s) true false (sc_key s))
  | None =>
    do i1 <- sc_1 s;
    do t1 <- d_files d idx;
    do (b, i1) <- ti_hasNext t1 i1;
    if b then
      do i1 <- ti_next i1;
      Some (true, mkSc (Some i1) None (sc_cur s) (sc_rev s) (sc_ign s) true true (sc_key s))
    else Some (false, mkSc (Some i1) None (sc_cur s) (sc_rev s) (sc_ign s) true false (sc_key s))
  end.

(** scanitr.cpp 75-134, hasNext. *)
Definition sc_hasNext (d : db) (idx : nat) (s : sc_st) : option (bool * sc_st) :=
  if sc_hnc s then Some (sc_hn s, s)
  else
    match sc_cur s with
    | Some o =>
      do (b, o) <- hasNext o;
      if b then Some (true, mkSc (sc_1 s) (sc_2 s) (Some o) (sc_rev s) (sc_ign s) true true (sc_key s))
      else sc_move d idx (mkSc (sc_1 s) (sc_2 s) None (sc_rev s) (sc_ign s) false (sc_hn s) (sc_key s))
    | None =>
      match sc_rev s with
      | Some o =>
        do (b, o) <- hasNext o;
        if b then Some (true, mkSc (sc_1 s) (sc_2 s) None (Some o) (sc_ign s) true true (sc_key s))
        else sc_move d idx (mkSc (sc_1 s) (sc_2 s) None None (sc_ign s) false (sc_hn s) (sc_key s))
      | None => sc_move d idx s
      end
    end.

(** The tables are read from the coordinates in the list of terms. *)
Definition sc_open (d : db) (perm : nat) (i : titr) : option pitr :=
  do st <- ti_strat i; kb_open d perm (ti_key i) (ti_cur i) (ti_mark i) st (-1) (-1).
(** if (ignseccolumn) o->ignoreSecondColumn(); if (!o->hasNext()) throw 10; o->next(). *)
Definition sc_first (ign : bool) (o : pitr) : option pitr :=
  do o <- (if ign then ignoreSecondColumn o else Some o);
  do (b, o) <- hasNext o;
  if b then next o else None.

(** scanitr.cpp 136-178, next. *)
Definition sc_next (fuel : nat) (d : db) (idx : nat) (s : sc_st) : option sc_st :=
  match sc_cur s with
  | Some o => do o <- next o; Some (mkSc (sc_1 s) (sc_2 s) (Some o) (sc_rev s) (sc_ign s) false (sc_hn s) (sc_key s))
  | None =>
    match sc_rev s with
    | Some o => do o <- next o; Some (mkSc (sc_1 s) (sc_2 s) None (Some o) (sc_ign s) false (sc_hn s) (sc_key s))
    | None =>
      let reversed := match sc_2 s with
        | None => None
        | Some i2 => match sc_1 s with
                     | None => Some i2
                     | Some i1 => if ti_key i2 =? ti_key i1 then None else Some i2
                     end
        end in
      match reversed with
      | Some i2 =>
        do o <- sc_open d (idx - 3) i2;
        do o <- newItrOnReverse fuel o (ti_key i2) (-1) (-1);
        do o <- sc_first (sc_ign s) o;
        Some (mkSc (sc_1 s) (sc_2 s) None (Some o) (sc_ign s) false (sc_hn s) (ti_key i2))
      | None =>
        do i1 <- sc_1 s;
        do o <- sc_open d idx i1;
        do o <- sc_first (sc_ign s) o;
        Some (mkSc (sc_1 s) (sc_2 s) (Some o) None (sc_ign s) false (sc_hn s) (ti_key i1))
      end
    end
  end.

(** scanitr.h 66-98: getValue1, getValue2, getCount and ignoreSecondColumn; scanitr.cpp 372-380, moveto. *)
Definition sc_table (s : sc_st) : option pitr := match sc_rev s with Some o => Some o | None => sc_cur s end.
Definition sc_set (s : sc_st) (o : pitr) : sc_st :=
  match sc_rev s with
  | Some _ => mkSc (sc_1 s) (sc_2 s) (sc_cur s) (Some o) (sc_ign s) (sc_hnc s) (sc_hn s) (sc_key s)
  | None => mkSc (sc_1 s) (sc_2 s) (Some o) None (sc_ign s) (sc_hnc s) (sc_hn s) (sc_key s)
  end.
Definition sc_ignore (s : sc_st) : option sc_st :=
  do c <- (match sc_cur s with Some o => do o <- ignoreSecondColumn o; Some (Some o) | None => Some None end);
  do r <- (match sc_rev s with Some o => do o <- ignoreSecondColumn o; Some (Some o) | None => Some None end);
  Some (mkSc (sc_1 s) (sc_2 s) c r true (sc_hnc s) (sc_hn s) (sc_key s)).
Definition sc_setKey (s : sc_st) (k : Z) : sc_st :=
  mkSc (sc_1 s) (sc_2 s) (sc_cur s) (sc_rev s) (sc_ign s) (sc_hnc s) (sc_hn s) k.

CoFixpoint sc_obj (fuel : nat) (d : db) (idx : nat) (s : sc_st) : pitr := {|
  hasNext := match sc_hasNext d idx s with Some (b, s1) => Some (b, sc_obj fuel d idx s1) | None => None end;
  next := match sc_next fuel d idx s with Some s1 => Some (sc_obj fuel d idx s1) | None => None end;
  value1 := match sc_table s with Some o => value1 o | None => 0 end;
  value2 := match sc_table s with Some o => value2 o | None => 0 end;
  key := sc_key s;
  getCount := match sc_table s with
              | Some o => match getCount o with Some (c, o1) => Some (c, sc_obj fuel d idx (sc_set s o1)) | None => None end
              | None => None end;
  moveto := fun c1 c2 => match sc_table s with
              | Some o => match moveto o c1 c2 with Some o1 => Some (sc_obj fuel d idx (sc_set s o1)) | None => None end
              | None => None end;
  ignoreSecondColumn := match sc_ignore s with Some s1 => Some (sc_obj fuel d idx s1) | None => None end;
  mark := None;
  reset := fun _ => None;
  setKey := fun k => sc_obj fuel d idx (sc_setKey s k) |}.

(** scanitr.cpp 344-370, gotoKey. *)
Definition sc_goto (fuel : nat) (d : db) (idx : nat) (k : Z) (s : sc_st) : option sc_st :=
  if sc_key s <? k then
    do i2 <- (match sc_2 s with
              | Some i => do t <- d_files d (idx - 3); do i <- ti_goto fuel (d_pad d) t k i; Some (Some i)
              | None => Some None end);
    do i1 <- (match sc_1 s with
              | Some i => do t <- d_files d idx; do i <- ti_goto fuel (d_pad d) t k i; Some (Some i)
              | None => Some None end);
    Some (mkSc i1 i2 None None (sc_ign s) (sc_hnc s) (sc_hn s) (sc_key s))
  else Some s.

(** ** Patterns *)

(** querier.cpp 915-956, Querier::get, without aggregated tables; [v] are the coordinates.  The
    iterator of a permutation that is not stored is made from the one with the last two columns
    exchanged.  The key of emptyItr is not set. *)
Definition kb_coord (d : db) (perm : nat) (c : coord) (k v1 v2 : Z) : option pitr :=
  kb_open d perm k (Z.to_nat (co_file c)) (co_pos c) (co_strat c) v1 v2.
Definition kb_get (fuel : nat) (d : db) (idx : nat) (v : tc) (k v1 v2 : Z) : option pitr :=
  match v idx with
  | Some c => kb_coord d idx c k v1 v2
  | None =>
    if Nat.leb 3 idx then
      match v (idx - 3)%nat with
      | Some c => do o <- kb_coord d (idx - 3) c k (-1) (-1); newItrOnReverse fuel o k v1 v2
      | None => Some (empty_itr 0)
      end
    else Some (empty_itr 0)
  end.

(** An iterator on which gotoKey may be called. *)
Inductive helper := HItr (o : pitr) | HScan (s : sc_st).

(** querier.cpp 1016-1085, getIterator without updates; NULL if the permutation cannot be served.
    The tree is asked even if the last key asked for was the same (1066-1069). *)
Definition kb_present (d : db) (idx : nat) : bool :=
  d_present d idx || (Nat.leb 3 idx && d_present d (idx - 3)).
Definition kb_base (fuel : nat) (d : db) (idx : nat) (s p o : Z) : option (option helper) :=
  if negb (kb_present d idx) then Some None
  else
    do (first, second, third) <- getIterator_split (Z.of_nat idx) s p o;
    if 0 <=? first then
      do r <- kb_lookup d first;
      match r with
      | Some v => do it <- kb_get fuel d idx v first second third; Some (Some (HItr it))
      | None => Some (Some (HItr (empty_itr 0)))
      end
    else do st <- sc_init d idx; Some (Some (HScan st)).

(** ** ReOrderItr *)

(** The calls on the helper, which iterates over SPO.  gotoKey of the other iterators throws or is
    not called. *)
Definition h_hasNext (d : db) (h : helper) : option (bool * helper) :=
  match h with
  | HItr o => do (b, o) <- hasNext o; Some (b, HItr o)
  | HScan s => do (b, s) <- sc_hasNext d 0 s; Some (b, HScan s)
  end.
Definition h_next (fuel : nat) (d : db) (h : helper) : option helper :=
  match h with
  | HItr o => do o <- next o; Some (HItr o)
  | HScan s => do s <- sc_next fuel d 0 s; Some (HScan s)
  end.
Definition h_cur (h : helper) : Z * Z * Z :=
  match h with
  | HItr o => cur o
  | HScan s => match sc_table s with Some o => (sc_key s, value1 o, value2 o) | None => (sc_key s, 0, 0) end
  end.
Definition h_goto (fuel : nat) (d : db) (k : Z) (h : helper) : option helper :=
  match h with
  | HItr _ => None
  | HScan s => do s <- sc_goto fuel d 0 k s; Some (HScan s)
  end.

(** src/trident/iterators/reorderitr.cpp 45-142, fillValuesOSP, PSO, POS and OPS, which differ in
    the order of the fields; 148-167: others throw. *)
Definition ro_place (idx : nat) (t : Z * Z * Z) : option (Z * Z * Z) :=
  let '(s, p, o) := t in
  if Nat.eqb idx 4 then Some (o, s, p)
  else if Nat.eqb idx 5 then Some (p, s, o)
  else if Nat.eqb idx 2 then Some (p, o, s)
  else if Nat.eqb idx 1 then Some (o, p, s)
  else None.

(** The loops, e.g. 46-66: the key and the pair of each triple that is kept, in the order in which
    they are found.  The constraints of the iterator itself (28-33) are not set. *)
Fixpoint ro_fill (fuel : nat) (d : db) (idx : nat) (p o : Z) (h : helper) : option (list (Z * (Z * Z))) :=
  match fuel with
  | O => None
  | S f =>
    do (b, h) <- h_hasNext d h;
    if b then
      do h <- h_next fuel d h;
      let '(vs, vp, vo) := h_cur h in
      if (0 <=? p) && negb (vp =? p) then
        if p <? vp then do h <- h_goto fuel d (vs + 1) h; ro_fill f d idx p o h
        else ro_fill f d idx p o h
      else if (0 <=? o) && negb (vo =? o) then ro_fill f d idx p o h
      else do (k, v1, v2) <- ro_place idx (vs, vp, vo); do l <- ro_fill f d idx p o h; Some ((k, (v1, v2)) :: l)
    else Some []
  end.

(** 35-42 and 169-177: the pairs of each key, sorted by key.  The order in which the hash table
    lists the keys has no effect, since the keys are different. *)
Fixpoint zinsert (x : Z) (l : list Z) : list Z :=
  match l with [] => [x] | y :: t => if x <=? y then x :: y :: t else y :: zinsert x t end.
Fixpoint zsort (l : list Z) : list Z := match l with [] => [] | x :: t => zinsert x (zsort t) end.
Definition ro_array (l : list (Z * (Z * Z))) : list (Z * list (Z * Z)) :=
  map (fun k => (k, map snd (filter (fun e => fst e =? k) l))) (zsort (nodup Z.eq_dec (map fst l))).

(** include/trident/iterators/reorderitr.h 40-56: initialized with array ([None] before), nextKeyIndex,
    itr, ignSecondColumn and key.  A vector of pairs is sorted when it is read, which has the same
    effect each time.  Left out: mark and reset. *)
Record ro_st := mkRo { ro_helper : helper; ro_arr : option (list (Z * list (Z * Z))); ro_index : nat;
  ro_itr : option pitr; ro_ign : bool; ro_key : Z }.

Definition ro_load (fuel : nat) (d : db) (idx : nat) (p o : Z) (s : ro_st) : option (list (Z * list (Z * Z))) :=
  match ro_arr s with Some a => Some a | None => do l <- ro_fill fuel d idx p o (ro_helper s); Some (ro_array l) end.

(** itr == NULL || !itr->hasNext(). *)
Definition ro_ended (itr : option pitr) : option (bool * option pitr) :=
  match itr with None => Some (true, None) | Some o => do (b, o) <- hasNext o; Some (negb b, Some o) end.

(** The loop 277-282 skips keys without pairs. *)
Fixpoint ro_skip (a : list (Z * list (Z * Z))) (i : nat) : nat :=
  match a with
  | (_, []) :: t => ro_skip t (S i)
  | _ => i
  end.

(** reorderitr.cpp 272-286, hasNext. *)
Definition ro_hasNext (fuel : nat) (d : db) (idx : nat) (p o : Z) (s : ro_st) : option (bool * ro_st) :=
  do a <- ro_load fuel d idx p o s;
  do (e, itr) <- ro_ended (ro_itr s);
  let i := if e then ro_skip (skipn (ro_index s) a) (ro_index s) else ro_index s in
  Some (negb e || Nat.ltb i (length a), mkRo (ro_helper s) (Some a) i itr (ro_ign s) (ro_key s)).

(** reorderitr.cpp 309-336, next. *)
Definition ro_next (s : ro_st) : option ro_st :=
  do (e, itr) <- ro_ended (ro_itr s);
  if e then
    do a <- ro_arr s;
    do (k, pairs) <- nth_error a (ro_index s);
    do o <- new_arr_itr k (psort pairs) (-1) (-1);
    do o <- sc_first (ro_ign s) o;
    Some (mkRo (ro_helper s) (ro_arr s) (S (ro_index s)) (Some o) (ro_ign s) k)
  else
    do o <- itr;
    do o <- next o;
    Some (mkRo (ro_helper s) (ro_arr s) (ro_index s) (Some o) (ro_ign s) (ro_key s)).

(** reorderitr.h 84-109 for the other methods.  moveto (152-159), mark and reset are left out. *)
Definition ro_ignore (s : ro_st) : option ro_st :=
  do i <- (match ro_itr s with Some o => do o <- ignoreSecondColumn o; Some (Some o) | None => Some None end);
  Some (mkRo (ro_helper s) (ro_arr s) (ro_index s) i true (ro_key s)).
Definition ro_setKey (s : ro_st) (k : Z) : ro_st :=
  mkRo (ro_helper s) (ro_arr s) (ro_index s) (ro_itr s) (ro_ign s) k.
Definition ro_setItr (s : ro_st) (o : pitr) : ro_st :=
  mkRo (ro_helper s) (ro_arr s) (ro_index s) (Some o) (ro_ign s) (ro_key s).

CoFixpoint ro_obj (fuel : nat) (d : db) (idx : nat) (p o : Z) (s : ro_st) : pitr := {|
  hasNext := match ro_hasNext fuel d idx p o s with Some (b, s1) => Some (b, ro_obj fuel d idx p o s1) | None => None end;
  next := match ro_next s with Some s1 => Some (ro_obj fuel d idx p o s1) | None => None end;
  value1 := match ro_itr s with Some o => value1 o | None => 0 end;
  value2 := match ro_itr s with Some o => value2 o | None => 0 end;
  key := ro_key s;
  getCount := match ro_itr s with
              | Some i => match getCount i with Some (c, i1) => Some (c, ro_obj fuel d idx p o (ro_setItr s i1)) | None => None end
              | None => None end;
  moveto := fun _ _ => None;
  ignoreSecondColumn := match ro_ignore s with Some s1 => Some (ro_obj fuel d idx p o s1) | None => None end;
  mark := None;
  reset := fun _ => None;
  setKey := fun k => ro_obj fuel d idx p o (ro_setKey s k) |}.

(** querier.cpp 1216-1241, getIterator, without partial indices (1226-1231). *)
Definition kb_query (fuel : nat) (d : db) (idx : nat) (s p o : Z) : option pitr :=
  do r <- kb_base fuel d idx s p o;
  match r with
  | Some (HItr it) => Some it
  | Some (HScan st) => Some (sc_obj fuel d idx st)
  | None =>
    if Nat.eqb idx 0 || Nat.eqb idx 3 then None
    else
      do r <- kb_base fuel d 0 s p o;
      do h <- r;
      Some (ro_obj fuel d idx p o (mkRo h None 0 None false 0))
  end.

(** ** Loading *)

(** loader.cpp 2466-2801, createIndices, without aggregation: for each permutation that is loaded,
    its tables (Loader::insert, stopInserts) and its file of coordinates (a storage to which
    nothing was written leaves no files in its directory); then 1873-1925,
    loadKB_createTree.  [inputs] gives the options and the sorted input of each permutation that
    is loaded (1485-1530), [mx] the size of the nodes of the tree. *)
Definition load_perm (x : option (cfg * list quad)) : option (list entry * option ts) :=
  match x with
  | None => Some ([], None)
  | Some (g, q) =>
    do s <- loader_insert g q ins_new;
    do t <- ins_stop s;
    Some (x_tree s, match t_file t 0 with [] => None | _ => Some t end)
  end.
Fixpoint load_perms (is_ : list nat) (inputs : nat -> option (cfg * list quad)) : option (list (list entry * option ts)) :=
  match is_ with
  | [] => Some []
  | i :: r => do x <- load_perm (inputs i); do l <- load_perms r inputs; Some (x :: l)
  end.
Definition kb_load (fuel mx : nat) (inputs : nat -> option (cfg * list quad)) (pad : list Z) : option db :=
  do l <- load_perms (seq 0 6) inputs;
  do m <- mg_all fuel (fun i => stream_of (tw_file (fst (nth i l ([], None)))));
  do t <- build_tc mx (map (fun kv => Put (fst kv) (snd kv)) m);
  Some (mkDb (RTree t) (fun i => snd (nth i l ([], None))) (fun i => match inputs i with Some _ => true | None => false end) pad).

(** loader.cpp 2037-2053: the flat tree is made from the tree and the files, and is used when the
    database is opened.  [fuel] bounds the number of terms, [junk] see fl_record. *)
Definition kb_flat (fuel : nat) (junk : Z -> nat -> list Z) (d : db) : option db :=
  match d_root d with
  | RFlat _ => None
  | RTree t =>
    do c <- itr t;
    do l <- walk fuel c;
    do r <- fl_load Labelled junk (d_files d) (map (fun kv => (fst kv, tc_of (snd kv))) l);
    match r with
    | Some raw => Some (mkDb (RFlat raw) (d_files d) (d_present d) (d_pad d))
    | None => Some d
    end
  end.
