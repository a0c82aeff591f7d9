(** Building the tables of one permutation: Loader::insert and Inserter. *)
From Verif Require Export StrategyModel FileModel.
Local Open Scope Z_scope.

(** Conversion to int. *)
Definition to_int32 (v : Z) : Z := (v + 2 ^ 31) mod 2 ^ 32 - 2 ^ 31.

(** include/trident/kb/inserter.h 39. *)
Definition POSAGGRBYTE : Z := 17592186044416.

(** What TreeInserter::addEntry (inserter.h 44-45) is called with. *)
Record entry := mkEntry { e_key : Z; e_n : Z; e_file : nat; e_pos : Z; e_strat : Z }.

(** Options of a run, the same for all calls: the permutation, whether tables may be skipped,
    whether a posArray is given and whether the input is aggregated (arguments of insert),
    useFixedStrategy/fixedStrategy, thresholdForColumnStorage, useRowForLargeTables,
    thresholdSkipTable (inserter.h 58-63), the threshold of the column writer and the limits
    of the table storage. *)
Record cfg := mkCfg { g_perm : Z; g_canSkip : bool; g_usePos : bool; g_agg : bool;
  g_fixed : option Z; g_ncc : Z; g_useRow : bool; g_skip : Z;
  g_colth : Z; g_maxsize : Z; g_maxmarks : Z }.

(** inserter.h 65-94, for one permutation.  x_buf are the first n values of values1 and
    values2; x_out are the pairs given to the writer of the open table, which is written at
    stopAppend (simplification: the bytes are written all at once); x_pos is what posArray
    received. *)
Record ins_st := mkIns {
  x_t1 : Z; x_t2 : Z; x_n : Z; x_buf : list (Z * Z); x_out : list (Z * Z);
  x_handler : inserter; x_file : nat; x_start : Z; x_strat : Z;
  x_only : bool; x_skip : bool;
  x_last : Z; x_cntLast : Z; x_coord : Z; x_posEls : Z;
  x_ntables : Z; x_nfirst : Z; x_skipped : Z;
  x_ts : ts; x_tree : list entry; x_pos : list (Z * Z * Z * Z)
}.

(** inserter.h 116-149, constructor. *)
Definition ins_new : ins_st :=
  mkIns (-1) 0 0 [] [] IColumn 0 0 0 false false 0 0 0 0 0 0 0 ts_new [] [].

(** inserter.cpp 123-127, getCoordinatesForPOS. *)
Definition getCoordinatesForPOS (s : ins_st) : Z :=
  Z.shiftl (Z.land (x_strat s) 255) 48 + Z.shiftl (Z.of_nat (x_file s)) 32 + x_start s.

(** inserter.cpp 86-99 and 239-253: what is written to posArray for one pair. *)
Definition ins_pos (g : cfg) (t2 t3 : Z) (s : ins_st) : ins_st :=
  if g_usePos g then
    let '(last, cnt, coord, out) :=
      if t2 =? x_last s then (x_last s, x_cntLast s, x_coord s, x_pos s)
      else (t2, 0, getCoordinatesForPOS s,
            if x_last s =? -1 then x_pos s
            else x_pos s ++ [(x_last s, x_t1 s, x_coord s, x_cntLast s)]) in
    mkIns (x_t1 s) (x_t2 s) (x_n s) (x_buf s) (x_out s) (x_handler s) (x_file s) (x_start s) (x_strat s)
      (x_only s) (x_skip s) last (cnt + 1) coord (x_posEls s) (x_ntables s) (x_nfirst s) (x_skipped s)
      (x_ts s) (x_tree s) (out ++ [(t2, x_t1 s, Z.lor t3 POSAGGRBYTE, 1)])
  else s.

(** inserter.cpp 101-113 and 254-266: files->append. *)
Definition agg_pair (g : cfg) (only : bool) (t2 t3 : Z) : list (Z * Z) :=
  if g_agg g then
    if only then (if Z.land t3 POSAGGRBYTE =? 0 then [(t2, t3)] else [])
    else (if Z.land t3 POSAGGRBYTE =? 0 then [] else [(t2, Z.ldiff t3 POSAGGRBYTE)])
  else [(t2, t3)].
Definition ins_append (g : cfg) (t2 t3 : Z) (s : ins_st) : ins_st :=
  mkIns (x_t1 s) (x_t2 s) (x_n s) (x_buf s) (x_out s ++ agg_pair g (x_only s) t2 t3) (x_handler s)
    (x_file s) (x_start s) (x_strat s) (x_only s) (x_skip s) (x_last s) (x_cntLast s) (x_coord s)
    (x_posEls s) (x_ntables s) (x_nfirst s) (x_skipped s) (x_ts s) (x_tree s) (x_pos s).

(** storagestrat.cpp 237-255, determineAggregatedStrategy. *)
Fixpoint agg_unique (prev : Z) (l : list (Z * Z)) : Z :=
  match l with [] => 0 | (a, _) :: t => (if prev =? a then 0 else 1) + agg_unique a t end.
Definition determineAggregatedStrategy (l : list (Z * Z)) : bool :=
  match l with
  | [] => 1 <=? 0
  | (a, _) :: t => 1 + agg_unique a t <=? Z.quot (zlen l) 10
  end.

(** inserter.cpp 195-268, storeInmemoryValuesIntoFiles; the [n] values are x_buf. *)
Definition skippable (g : cfg) : bool :=
  (((g_perm g =? 3) || (g_perm g =? 5) || (g_perm g =? 4)) && g_canSkip g)%bool.
Definition ins_choose (g : cfg) (l : list (Z * Z)) : bool * Z :=
  match g_fixed g with
  | Some f => (false, f)
  | None => let only := (g_agg g && determineAggregatedStrategy l)%bool in
            (only, if only then STRATEGY_FOR_POS else determineStrategy l (g_ncc g) (g_useRow g))
  end.
Definition ins_store (g : cfg) (s : ins_st) : option ins_st :=
  if (skippable g && (zlen (x_buf s) <? g_skip g))%bool then
    Some (mkIns (x_t1 s) (x_t2 s) (x_n s) (x_buf s) (x_out s) (x_handler s) (x_file s) (x_start s)
            (x_strat s) (x_only s) true (x_last s) (x_cntLast s) (x_coord s) (x_posEls s)
            (x_ntables s) (x_nfirst s) (x_skipped s + 1) (x_ts s) (x_tree s) (x_pos s))
  else
    let '(only, strat) := ins_choose g (x_buf s) in
    do h <- getBinaryTableInserter strat;
    do (t, mk) <- ts_start (g_maxsize g) (g_maxmarks g) (x_t1 s) strat (x_ts s);
    let s1 := mkIns (x_t1 s) (x_t2 s) (x_n s) (x_buf s) [] h (t_last t) (to_int32 mk) strat
                only false (x_last s) (x_cntLast s) (x_coord s) (x_posEls s)
                (x_ntables s) (x_nfirst s) (x_skipped s) t (x_tree s) (x_pos s) in
    Some (fold_left (fun st p => ins_append g (fst p) (snd p) (ins_pos g (fst p) (snd p) st)) (x_buf s) s1).

(** inserter.cpp 133-193, writeCurrentEntryIntoTree. *)
Definition ins_write_entry (g : cfg) (s : ins_st) : option ins_st :=
  do s <- (if x_n s <=? THRESHOLD_KEEP_MEMORY then ins_store g s else Some s);
  if x_skip s then Some s
  else
    let pos := if (g_usePos g && negb (x_last s =? -1))%bool
               then x_pos s ++ [(x_last s, x_t1 s, x_coord s, x_cntLast s)] else x_pos s in
    do bs <- ins_write (g_colth g) (x_handler s) (x_out s);
    do t <- ts_stop (zlen bs) (ts_write bs (x_ts s));
    let '(nels, posEls) := if g_agg g then (Z.quot (x_posEls s) 2, 0) else (x_n s, x_posEls s) in
    Some (mkIns (x_t1 s) (x_t2 s) (x_n s) (x_buf s) (x_out s) (x_handler s) (x_file s) (x_start s)
            (x_strat s) (x_only s) (x_skip s) (x_last s) (x_cntLast s) (x_coord s) posEls
            (x_ntables s) (x_nfirst s) (x_skipped s) t
            (x_tree s ++ [mkEntry (x_t1 s) nels (x_file s) (x_start s) (x_strat s)]) pos).

(** inserter.cpp 32-117, insert. *)
Definition ins_insert (g : cfg) (t1 t2 t3 count : Z) (s : ins_st) : option ins_st :=
  do s1 <-
    (if t1 =? x_t1 s then
       Some (if t2 =? x_t2 s then s
             else mkIns (x_t1 s) t2 (x_n s) (x_buf s) (x_out s) (x_handler s) (x_file s) (x_start s)
                    (x_strat s) (x_only s) (x_skip s) (x_last s) (x_cntLast s) (x_coord s) (x_posEls s)
                    (x_ntables s) (x_nfirst s + 1) (x_skipped s) (x_ts s) (x_tree s) (x_pos s))
     else
       do s0 <- (if x_t1 s =? -1 then Some s else ins_write_entry g s);
       let '(last, cnt, coord) := if g_usePos g then (-1, 0, 0) else (x_last s0, x_cntLast s0, x_coord s0) in
       Some (mkIns t1 t2 0 [] (x_out s0) (x_handler s0) (x_file s0) (x_start s0)
               (x_strat s0) (x_only s0) (x_skip s0) last cnt coord 0
               (x_ntables s0 + 1) (x_nfirst s0 + 1) (x_skipped s0) (x_ts s0) (x_tree s0) (x_pos s0)));
  let n := x_n s1 in
  let s2 := mkIns (x_t1 s1) (x_t2 s1) (n + 1)
              (if n <? THRESHOLD_KEEP_MEMORY then x_buf s1 ++ [(t2, t3)] else x_buf s1)
              (x_out s1) (x_handler s1) (x_file s1) (x_start s1) (x_strat s1) (x_only s1) (x_skip s1)
              (x_last s1) (x_cntLast s1) (x_coord s1) (if g_agg g then x_posEls s1 + count else x_posEls s1)
              (x_ntables s1) (x_nfirst s1) (x_skipped s1) (x_ts s1) (x_tree s1) (x_pos s1) in
  if n <? THRESHOLD_KEEP_MEMORY then Some s2
  else
    do s3 <- (if n =? THRESHOLD_KEEP_MEMORY then ins_store g s2 else Some s2);
    if x_skip s3 then None
    else Some (ins_append g t2 t3 (ins_pos g t2 t3 s3)).

(** inserter.cpp 270-278, flush. *)
Definition ins_flush (g : cfg) (s : ins_st) : option ins_st :=
  do s1 <- (if x_t1 s =? -1 then Some s else ins_write_entry g s);
  Some (mkIns (-1) (x_t2 s1) (x_n s1) (x_buf s1) (x_out s1) (x_handler s1) (x_file s1) (x_start s1)
          (x_strat s1) (x_only s1) (x_skip s1) (x_last s1) (x_cntLast s1) (x_coord s1) (x_posEls s1)
          (x_ntables s1) (x_nfirst s1) (x_skipped s1) (x_ts s1) (x_tree s1) (x_pos s1)).

(** src/trident/kb/loader.cpp 1017-1194, Loader::insert: the merged input (triple and count) is
    inserted without repeated triples, then flushed.  The parallel variant (1054-1152) only
    passes the same stream through buffers; the raw copy, the sample and the statistics are
    left out. *)
Notation quad := (Z * Z * Z * Z)%type.
Fixpoint ld_insert (g : cfg) (prev : Z * Z * Z) (l : list quad) (s : ins_st) : option ins_st :=
  match l with
  | [] => Some s
  | (t1, t2, t3, c) :: r =>
    let '(ps, pp, po) := prev in
    if ((t3 =? po) && (t2 =? pp) && (t1 =? ps))%bool then ld_insert g prev r s
    else do s1 <- ins_insert g t1 t2 t3 c s; ld_insert g (t1, t2, t3) r s1
  end.
Definition loader_insert (g : cfg) (l : list quad) (s : ins_st) : option ins_st :=
  do s1 <- ld_insert g (-1, -1, -1) l s; ins_flush g s1.

(** inserter.cpp 280-282, stopInserts. *)
Definition ins_stop (s : ins_st) : option ts := ts_stopInsert (x_ts s).
