(** The files of one update: writing the six permutations and reading them.

    src/trident/kb/diffindex3.cpp.  The tree that maps a key to its coordinates is modelled
    by the list of its entries (its own behaviour is C17).  A growable mapped file
    (RWMappedFile) is the list of the bytes written so far; the sizes of the blocks that are
    reserved in it are kept, see [block_size].  Times, log messages, the copy of the update
    in the file "raw" and the counters of layouts are left out. *)
From Verif Require Export StrategyModel QueryModel.
Local Open Scope Z_scope.

(** ** Pairs packed in 64 bits *)

(** diffindex3.cpp 1467 and 1469: (a << 32) + b on unsigned 64-bit integers. *)
Definition pack (a b : Z) : Z := (a * 2 ^ 32 + b) mod 2 ^ 64.
(** x >> 32 and x & ((uint32_t) - 1), e.g. lines 912-913. *)
Definition hi (x : Z) : Z := x / 2 ^ 32.
Definition lo (x : Z) : Z := x mod 2 ^ 32.
(** diffindex3.cpp 892, 965, 985 and so on: uint64_t prevpair = ~0u. *)
Definition NOPAIR : Z := 2 ^ 32 - 1.

(** ** diffindex3.cpp 754-785, getStrategyAndInserter *)

(** Lines 760-777: the code of a column by its largest value.  StrategyModel.flagbytes is the
    same test in another file. *)
Definition colcode (largest : Z) : Z :=
  let nb := nbytes largest in
  if (nb =? 1)%nat then 0 else if (nb =? 2)%nat then 1 else if (nb <? 5)%nat then 2 else 3.
(** Lines 760 and 769: tmp.back() >> 32. *)
Definition code_of (tmp : list Z) : Z := colcode (hi (last tmp 0)).
(** Lines 778-784. *)
Definition row_strat (c1 c2 : Z) : Z :=
  to_char (setBytesField2 (setBytesField1 (setStorageType 0 NEWROW_ITR) c1) c2).

(** Lines 787-872, _copy11 to _copy44 and the array inserters: the width of a field by its
    code.  Code 3 stands for 8 bytes here and for 5 bytes in the readers. *)
Definition copyw (c : Z) : nat :=
  if c =? 0 then 1%nat else if c =? 1 then 2%nat else if c =? 2 then 4%nat else 8%nat.

(** ** One table in row form *)

(** diffindex3.cpp 886-897: the bytes written, prevpair, prev, countprevpair, validrows, and
    the calls of addFirst on the statistics as pairs (value, count). *)
Record rw_st := mkRw { rw_out : list Z; rw_pair : Z; rw_prev : Z; rw_cp : Z; rw_valid : Z;
                       rw_log : list (Z * Z) }.
Definition rw_start : rw_st := mkRw [] NOPAIR (-1) 0 0 [].

(** diffindex3.cpp 905-919 and 921-935; 987-1004 in storeRowColumnFormat is the same.  The
    two tables are written in one loop there; nothing is shared between them. *)
Definition rw_step (c1 c2 : Z) (s : rw_st) (x : Z) : rw_st :=
  if negb (x =? rw_pair s) then
    let v1 := hi x in
    let v2 := lo x in
    let out := rw_out s ++ enc (copyw c1) v1 ++ enc (copyw c2) v2 in
    if negb (v1 =? rw_prev s) then
      mkRw out x v1 (rw_valid s) (rw_valid s + 1)
        (if negb (rw_prev s =? -1) then rw_log s ++ [(rw_prev s, rw_valid s - rw_cp s)] else rw_log s)
    else mkRw out x (rw_prev s) (rw_cp s) (rw_valid s + 1) (rw_log s)
  else s.
Definition rw_run (c1 c2 : Z) (tmp : list Z) : rw_st := fold_left (rw_step c1 c2) tmp rw_start.
(** Lines 938-941 and 1038-1041: the count of the last value. *)
Definition rw_last (s : rw_st) : list (Z * Z) := rw_log s ++ [(rw_prev s, rw_valid s - rw_cp s)].

(** ** One table in column form *)

(** Writing over bytes that are already there. *)
Definition put_at (m : list Z) (p : Z) (bs : list Z) : list Z :=
  firstn (Z.to_nat p) m ++ bs ++ skipn (Z.to_nat p + length bs) m.

(** Utils::encode_vlong2_fixedLen (kognac): as encode_vlong2, on [n] bytes. *)
Fixpoint encv_fixed (n : nat) (v : Z) : list Z :=
  match n with
  | O => []
  | S O => [v mod 128]
  | S n' => (v mod 128 + 128) :: encv_fixed n' (v / 128)
  end.

(** The bytes from beginTable on, prevfirsttable, prevpair, pointerPrevCount as an offset from
    beginTable, previousNValid, nfirstterms, validrows and the calls of addFirst. *)
Record cw_st := mkCw { cw_out : list Z; cw_first : Z; cw_pair : Z; cw_ptr : option Z;
                       cw_pnv : Z; cw_nft : Z; cw_valid : Z; cw_log : list (Z * Z) }.

(** diffindex3.cpp 1089-1134: four bytes for the size, the header, four bytes for the number of
    first terms, the number of pairs.  970-989 in storeRowColumnFormat is the same. *)
Definition cw_start (b1 b2 bc bo : nat) (n : Z) : cw_st :=
  mkCw (repeat 0 4 ++
        [(Z.of_nat b1 * 8 + Z.of_nat b2 mod 8) mod 256; (Z.of_nat bc * 8 + Z.of_nat bo mod 8) mod 256] ++
        repeat 0 4 ++ enc_vlong2 n)
    (-1) NOPAIR None 0 0 0 [].

(** diffindex3.cpp 1138-1165 and 1167-1194; 1006-1035 in storeRowColumnFormat. *)
Definition cw_step (b1 bc bo : nat) (s : cw_st) (x : Z) : cw_st :=
  if negb (x =? cw_pair s) then
    let v := hi x in
    if negb (v =? cw_first s) then
      let log := if negb (cw_first s =? -1) then cw_log s ++ [(cw_first s, cw_valid s - cw_pnv s)]
                 else cw_log s in
      let out := cw_out s ++ enc b1 v in
      let out := match cw_ptr s with
                 | Some p => put_at out p (enc bc (cw_valid s - cw_pnv s))
                 | None => out
                 end in
      let ptr := Z.of_nat (length out) in
      let out := out ++ repeat 0 bc ++ enc bo (cw_valid s) in
      mkCw out v x (Some ptr) (cw_valid s) (cw_nft s + 1) (cw_valid s + 1) log
    else mkCw (cw_out s) (cw_first s) x (cw_ptr s) (cw_pnv s) (cw_nft s) (cw_valid s + 1) (cw_log s)
  else s.
Definition cw_run (b1 b2 bc bo : nat) (tmp : list Z) (n : Z) : cw_st :=
  fold_left (cw_step b1 bc bo) tmp (cw_start b1 b2 bc bo n).

(** diffindex3.cpp 1216-1229; 1058-1066 in storeRowColumnFormat. *)
Definition cw_second (b2 : nat) (s : list Z * Z) (x : Z) : list Z * Z :=
  if negb (x =? snd s) then (fst s ++ enc b2 (lo x), x) else s.

(** diffindex3.cpp 1197-1232; 1043-1068 in storeRowColumnFormat: the last count, the number of
    first terms, the second values, the size of the table. *)
Definition cw_stop (b2 bc : nat) (s : cw_st) (tmp : list Z) : list Z :=
  let out := match cw_ptr s with
             | Some p => put_at (cw_out s) p (enc bc (cw_valid s - cw_pnv s))
             | None => cw_out s
             end in
  let out := put_at out 6 (encv_fixed 4 (cw_nft s)) in
  let out := fst (fold_left (cw_second b2) tmp (out, NOPAIR)) in
  put_at out 0 (enc 4 (Z.of_nat (length out))).
Definition cw_last (s : cw_st) : list (Z * Z) :=
  match cw_ptr s with
  | Some _ => cw_log s ++ [(cw_first s, cw_valid s - cw_pnv s)]
  | None => cw_log s
  end.

(** Lines 1098-1107: the widths in the header; [tmp] is the table and [inv] its inverse. *)
Definition col_table (tmp inv : list Z) : list Z * list (Z * Z) * Z :=
  let n := Z.of_nat (length tmp) in
  let b1 := nbytes (hi (last tmp 0)) in
  let b2 := nbytes (hi (last inv 0)) in
  let bc := nbytes n in
  let bo := nbytes n in
  let s := cw_run b1 b2 bc bo tmp n in
  (cw_stop b2 bc s tmp, cw_last s, cw_valid s).
Definition COL_STRAT : Z := to_char (setStorageType 0 NEWCOLUMN_ITR).

(** ** Two tables: a key with its pairs in both orders *)

(** What one call leaves: the bytes written and the strategy for both tables, the calls of
    addFirst1 and addFirst2, and the number of rows returned. *)
Record stored := mkStored { st_b1 : list Z; st_s1 : Z; st_l1 : list (Z * Z);
                            st_b2 : list Z; st_s2 : Z; st_l2 : list (Z * Z); st_n : Z }.

(** diffindex3.cpp 873-944, storeRowFormat. *)
Definition storeRow (tmp1 tmp2 : list Z) : stored :=
  let c1 := code_of tmp1 in
  let c2 := code_of tmp2 in
  let r1 := rw_run c1 c2 tmp1 in
  let r2 := rw_run c2 c1 tmp2 in
  mkStored (rw_out r1) (row_strat c1 c2) (if 0 <? rw_valid r1 then rw_last r1 else rw_log r1)
           (rw_out r2) (row_strat c2 c1) (if 0 <? rw_valid r1 then rw_last r2 else rw_log r2)
           (rw_valid r1).

(** diffindex3.cpp 946-1080, storeRowColumnFormat: tmp1 in row form and tmp2 in column form.
    With invertCounters the calls of addFirst1 and addFirst2 are exchanged, which the caller
    below undoes by exchanging the tables. *)
Definition storeRowColumn (tmp1 tmp2 : list Z) : stored :=
  let c1 := code_of tmp1 in
  let c2 := code_of tmp2 in
  let r1 := rw_run c1 c2 tmp1 in
  let '(b, lg, _) := col_table tmp2 tmp1 in
  mkStored (rw_out r1) (row_strat c1 c2) (rw_last r1) b COL_STRAT lg (rw_valid r1).

(** diffindex3.cpp 1082-1235, storeColumnFormat. *)
Definition storeColumn (tmp1 tmp2 : list Z) : stored :=
  let '(a, la, n) := col_table tmp1 tmp2 in
  let '(b, lb, _) := col_table tmp2 tmp1 in
  mkStored a COL_STRAT la b COL_STRAT lb n.

Definition swap (s : stored) : stored :=
  mkStored (st_b2 s) (st_s2 s) (st_l2 s) (st_b1 s) (st_s1 s) (st_l1 s) (st_n s).

(** diffindex3.cpp 1285-1345 in storeTablesOnBuffer.  shouldUseColumns (1237-1258) draws
    random positions: its two answers are [col1] and [col2]. *)
Definition storeTables (col1 col2 : bool) (tmp1 tmp2 : list Z) : stored :=
  if Z.of_nat (length tmp1) <? 64 then storeRow tmp1 tmp2
  else if negb col1 && negb col2 then storeRow tmp1 tmp2
  else if negb col1 && col2 then storeRowColumn tmp1 tmp2
  else if col1 && negb col2 then swap (storeRowColumn tmp2 tmp1)
  else storeColumn tmp1 tmp2.

(** The sizes of the two blocks reserved for the tables, lines 1287, 1300-1301 and their uses. *)
Definition block_size (col1 col2 : bool) (tmp1 : list Z) : Z * Z :=
  let n := Z.of_nat (length tmp1) in
  if n <? 64 then (n * 8, n * 8)
  else ((if col1 then n * 16 else n * 8), (if col2 then n * 16 else n * 8)).

(** ** All keys of an update *)

(** include/trident/kb/updatestats.h, KeyInfo; nfirsts1 and nfirsts2 only serve estimates and
    are left out. *)
Record kinfo := mkKi { ki_key : Z; ki_pos1 : Z; ki_pos2 : Z; ki_n : Z; ki_s1 : Z; ki_s2 : Z;
                       ki_l1 : list (Z * Z); ki_l2 : list (Z * Z) }.

(** The two files, the entries of the tree and nvalid. *)
Record si_st := mkSi { si_f1 : mem; si_f2 : mem; si_keys : list kinfo; si_nvalid : Z }.

(** diffindex3.cpp 1347-1364, end of storeTablesOnBuffer; 1602-1605 and 1620-1625: a block
    begins at the current position of the file, which grows by the size used.  pos1 and pos2
    are 32-bit integers.  [orc] gives the answers of shouldUseColumns for a key. *)
Definition si_store (orc : Z -> bool * bool) (k : Z) (tmp1 tmp2 : list Z) (s : si_st) : si_st :=
  let t := storeTables (fst (orc k)) (snd (orc k)) tmp1 tmp2 in
  mkSi (si_f1 s ++ st_b1 t) (si_f2 s ++ st_b2 t)
    (si_keys s ++ [mkKi k (Z.of_nat (length (si_f1 s)) mod 2 ^ 32) (Z.of_nat (length (si_f2 s)) mod 2 ^ 32)
                     (st_n t) (st_s1 t) (st_s2 t) (st_l1 t) (st_l2 t)])
    (si_nvalid s + st_n t).

(** std::sort of integers: all correct sorts give the same list. *)
Fixpoint zinsert (x : Z) (l : list Z) : list Z :=
  match l with
  | [] => [x]
  | y :: t => if x <=? y then x :: l else y :: zinsert x t
  end.
Definition zsort (l : list Z) : list Z := fold_right zinsert [] l.

(** diffindex3.cpp 1434-1453: the pairs of a finished group are sorted; two pairs by hand. *)
Definition si_sort (l : list Z) : list Z :=
  match l with
  | [] | [_] => l
  | [a; b] => if b <? a then [b; a] else l
  | _ => zsort l
  end.

(** diffindex3.cpp 1428-1485, the loop of sortIndex with sort set, on the triples in the order
    of idx1, each as (first, second, third). *)
Fixpoint si_loop (orc : Z -> bool * bool) (prev : Z) (tmp1 tmp2 : list Z) (s : si_st)
  (l : list (Z * Z * Z)) : si_st :=
  match l with
  | [] => match tmp1 with [] => s | _ => si_store orc prev (zsort tmp1) (zsort tmp2) s end
  | (a, b, c) :: t =>
    if negb (a =? prev) then
      let s' := match tmp1 with [] => s | _ => si_store orc prev (si_sort tmp1) (si_sort tmp2) s end in
      si_loop orc a [pack b c] [pack c b] s' t
    else si_loop orc prev (tmp1 ++ [pack b c]) (tmp2 ++ [pack c b]) s t
  end.

(** diffindex3.cpp 1367-1504, sortIndex: [f1] and [f2] are the files to which the tables are
    appended (lines 1395-1415; empty when the update gets its own). *)
Definition sortIndex (orc : Z -> bool * bool) (f1 f2 : mem) (l : list (Z * Z * Z)) : si_st :=
  si_loop orc (-1) [] [] (mkSi f1 f2 [] 0) l.

(** An update on disk: size, the entries of the three trees, the six files by permutation. *)
Record dix := mkDix { dx_size : Z; dx_s : list kinfo; dx_p : list kinfo; dx_o : list kinfo;
                      dx_file : Z -> mem }.

(** diffindex3.cpp 405-752, createDiffIndex: sorting idx1 by one column and writing the tables,
    three times; idx1 is modelled by the triples it points to.  [srt] is std::sort with
    _Sorter.  Lines 546-643 (numbers of first terms) are left out. *)
Definition createDiffIndex (srt : (Z * Z * Z -> Z) -> list (Z * Z * Z) -> list (Z * Z * Z))
  (orc : Z -> Z -> bool * bool) (files : Z -> mem) (all : list (Z * Z * Z)) : dix :=
  let ls := srt (fun t => fst (fst t)) all in
  let s := sortIndex (orc IDX_SPO) (files IDX_SPO) (files IDX_SOP) ls in
  let lp := srt (fun t => snd (fst t)) ls in
  let p := sortIndex (orc IDX_POS) (files IDX_POS) (files IDX_PSO)
             (map (fun t => let '(s, p, o) := t in (p, o, s)) lp) in
  let l_o := srt (fun t => snd t) lp in
  let o := sortIndex (orc IDX_OPS) (files IDX_OPS) (files IDX_OSP)
             (map (fun t => let '(s, p, o) := t in (o, p, s)) l_o) in
  mkDix (si_nvalid s) (si_keys s) (si_keys p) (si_keys o)
    (fun idx => if idx =? IDX_SPO then si_f1 s else if idx =? IDX_SOP then si_f2 s
                else if idx =? IDX_POS then si_f1 p else if idx =? IDX_PSO then si_f2 p
                else if idx =? IDX_OPS then si_f1 o else si_f2 o).

(** ** Reading *)

(** include/trident/tree/coordinates.h 73-80 and 45-48: what is kept for one permutation; the
    file is a (signed) short. *)
Record dcoord := mkDc { dc_file : Z; dc_mark : Z; dc_n : Z; dc_strat : Z }.
Definition to_short (v : Z) : Z := (v + 2 ^ 15) mod 2 ^ 16 - 2 ^ 15.

(** diffindex3.cpp 72-74 (roots) and 648-697: the coordinates of a key for a permutation. *)
Definition tree_of (d : dix) (idx : Z) : list kinfo :=
  if (idx =? IDX_SPO) || (idx =? IDX_SOP) then dx_s d
  else if (idx =? IDX_POS) || (idx =? IDX_PSO) then dx_p d else dx_o d.
Definition coord_of (idx : Z) (k : kinfo) : dcoord :=
  let inv := (idx =? IDX_SOP) || (idx =? IDX_PSO) || (idx =? IDX_OSP) in
  let pos := if inv then ki_pos2 k else ki_pos1 k in
  mkDc (to_short (pos / 2 ^ 16)) (pos mod 2 ^ 16) (ki_n k) (if inv then ki_s2 k else ki_s1 k).
Definition tree_get (d : dix) (idx k : Z) : option dcoord :=
  match find (fun e => ki_key e =? k) (tree_of d idx) with
  | Some e => Some (coord_of idx e)
  | None => None
  end.

(** Utils::decode_int (kognac): a signed 32-bit integer. *)
Definition to_int (v : Z) : Z := (v + 2 ^ 31) mod 2 ^ 32 - 2 ^ 31.

(** diffindex3.cpp 162-181 and 223-256: the table at the coordinates, opened with the values
    v1 and v2 (-1 for none); [m] is the mapped file. *)
Definition open_at (m : mem) (c : dcoord) (k v1 v2 : Z) : option pitr :=
  do r <- getBinaryTable (dc_strat c);
  let begin := dc_file c * 2 ^ 16 + dc_mark c in
  match r with
  | RRow w1 w2 => tbl_open r m k v1 v2 begin (begin + dc_n c * (Z.of_nat w1 + Z.of_nat w2 + 0))
  | _ => do size <- rdn 4 m begin; tbl_open r m k v1 v2 (begin + 4) (begin + to_int size)
  end.

(** diffindex3.cpp 184-260, getIterator(idx, first, second, third); the number of first terms
    it adds is left out.  [mm] maps a permutation to its mapped file. *)
Definition diff_get (d : dix) (mm : Z -> mem) (idx first second third : Z) : option pitr :=
  if first <? 0 then None
  else match tree_get d idx first with
       | Some c => open_at (mm idx) c first second (if second =? -1 then -1 else third)
       | None => Some (empty_itr 0)
       end.

(** diffindex3.cpp 1506-1534, getSize and getCard. *)
Definition diff_size (d : dix) : Z := dx_size d.
Definition diff_card (d : dix) (idx first : Z) : Z :=
  match tree_get d idx first with Some c => dc_n c | None => 0 end.

(** ** src/trident/iterators/diffscanitr.cpp, include/trident/iterators/diffscanitr.h *)

Record ds_itr := mkDsi { di_root : list (Z * dcoord); di_key : Z; di_cur : option pitr;
                         di_hn : bool; di_hnc : bool; di_ign : bool; di_k : Z; di_v1 : Z; di_v2 : Z }.

(** diffscanitr.cpp 36-48: the next key of the tree and its table. *)
Definition dsi_open (m : mem) (s : ds_itr) : option (bool * ds_itr) :=
  match di_root s with
  | [] => Some (false, mkDsi [] (di_key s) None false true (di_ign s) (di_k s) (di_v1 s) (di_v2 s))
  | (k, c) :: r =>
    do o <- open_at m c 0 (-1) (-1);
    do (_, o1) <- hasNext o;
    do o2 <- (if di_ign s then ignoreSecondColumn o1 else Some o1);
    do o3 <- next o2;
    Some (true, mkDsi r k (Some o3) true true (di_ign s) (di_k s) (di_v1 s) (di_v2 s))
  end.
(** diffscanitr.cpp 29-63, hasNext. *)
Definition dsi_hasNext (m : mem) (s : ds_itr) : option (bool * ds_itr) :=
  if di_hnc s then Some (di_hn s, s)
  else match di_cur s with
       | None => dsi_open m s
       | Some o =>
         do (b, o1) <- hasNext o;
         if b then
           do o2 <- next o1;
           Some (true, mkDsi (di_root s) (di_key s) (Some o2) true true (di_ign s) (di_k s) (di_v1 s) (di_v2 s))
         else dsi_open m s
       end.
(** diffscanitr.cpp 65-70, next. *)
Definition dsi_next (s : ds_itr) : option ds_itr :=
  do o <- di_cur s;
  Some (mkDsi (di_root s) (di_key s) (Some o) (di_hn s) false (di_ign s) (di_key s) (value1 o) (value2 o)).
(** diffscanitr.h 66-71, ignoreSecondColumn; 73-79, getCount. *)
Definition dsi_ignore (s : ds_itr) : option ds_itr :=
  do c <- (match di_cur s with
           | Some o => do o1 <- ignoreSecondColumn o; Some (Some o1)
           | None => Some None
           end);
  Some (mkDsi (di_root s) (di_key s) c (di_hn s) (di_hnc s) true (di_k s) (di_v1 s) (di_v2 s)).
Definition dsi_getCount (s : ds_itr) : option (Z * ds_itr) :=
  if di_ign s then
    do o <- di_cur s;
    do (n, o1) <- getCount o;
    Some (n, mkDsi (di_root s) (di_key s) (Some o1) (di_hn s) (di_hnc s) true (di_k s) (di_v1 s) (di_v2 s))
  else Some (1, s).
(** diffscanitr.cpp 101-103, moveto. *)
Definition dsi_moveto (s : ds_itr) (c1 c2 : Z) : option ds_itr :=
  do o <- di_cur s;
  do o1 <- moveto o c1 c2;
  Some (mkDsi (di_root s) (di_key s) (Some o1) (di_hn s) (di_hnc s) (di_ign s) (di_k s) (di_v1 s) (di_v2 s)).
Definition dsi_setKey (s : ds_itr) (k : Z) : ds_itr :=
  mkDsi (di_root s) (di_key s) (di_cur s) (di_hn s) (di_hnc s) (di_ign s) k (di_v1 s) (di_v2 s).

(** mark and reset throw (diffscanitr.h 58-64). *)
CoFixpoint dsi_obj (m : mem) (s : ds_itr) : pitr := {|
  hasNext := match dsi_hasNext m s with Some (b, s') => Some (b, dsi_obj m s') | None => None end;
  next := match dsi_next s with Some s' => Some (dsi_obj m s') | None => None end;
  value1 := di_v1 s;
  value2 := di_v2 s;
  key := di_k s;
  getCount := match dsi_getCount s with Some (n, s') => Some (n, dsi_obj m s') | None => None end;
  moveto := fun c1 c2 => match dsi_moveto s c1 c2 with Some s' => Some (dsi_obj m s') | None => None end;
  ignoreSecondColumn := match dsi_ignore s with Some s' => Some (dsi_obj m s') | None => None end;
  mark := None;
  reset := fun _ => None;
  setKey := fun k => dsi_obj m (dsi_setKey s k) |}.

(** diffindex3.cpp 119-130, getScan; diffscanitr.cpp 89-97, init.  The tree delivers its entries
    in the order of the keys, which is the order in which they were appended. *)
Definition diff_scan (d : dix) (mm : Z -> mem) (idx : Z) : pitr :=
  dsi_obj (mm idx)
    (mkDsi (map (fun e => (ki_key e, coord_of idx e)) (tree_of d idx)) 0 None false false false 0 0 0).
