(** Aggregated index scans of a query: AggregatedIndexScan (rdf3x/src/rts/AggregatedIndexScan.cpp)
    over a TridentScan that skips the last column (src/layers/TridentLayer.cpp, AGGR_SKIP_LAST).  A
    plan has such scans for patterns with one variable that is used nowhere else. *)
From Verif Require Export TsModel.
Local Open Scope Z_scope.

(** ** Hints *)
(** AggregatedIndexScan.cpp 87-108, the first value; the columns are described as in TsModel. *)
Definition ahint1 (c : hcol) (s : Z * Z) : option (Z * Z) :=
  let up := fun s v => if raise v (fst s) then (v, 0) else s in
  let s := match h_bound c with Some v => up s v | None => s end in
  let s := fold_left up (h_merge c) s in
  match h_dom c with
  | Some d => do v <- nextCandidate d (fst s); if fst s <? v then Some (v, 0) else Some s
  | None => Some s
  end.
(** 110-127, the second value. *)
Definition ahint2 (c : hcol) (s : Z * Z) : option (Z * Z) :=
  let up := fun s v => if raise v (snd s) then (fst s, v) else s in
  let s := match h_bound c with Some v => up s v | None => s end in
  let s := fold_left up (h_merge c) s in
  match h_dom c with
  | Some d => do v <- nextCandidate d (snd s); if snd s <? v then Some (fst s, v) else Some s
  | None => Some s
  end.
(** 84-128, AggregatedHint::next(value1, value2). *)
Definition ahint : Type := hcol * hcol.
Definition ahint_next (h : ahint) : option (Z * Z) := do s <- ahint1 (fst h) (0, 0); ahint2 (snd h) s.

(** ** TridentScan with AGGR_SKIP_LAST *)
(** TridentLayer.cpp 1085-1120, next.  gotoKey is not among the calls of the iterators modelled here:
    the model stops ([None]) where it is called (1092-1093). *)
Definition tsa_next (h : ahint) (s : ts_st) : option (bool * ts_st) :=
  do itr <- ts_itr s;
  do itr <- (if ts_count s =? 0 then
               do (k, p) <- ahint_next h;
               if key itr <? k then None
               else if k =? key itr then if value1 itr <? p then moveto itr (to_i64 p) 0 else Some itr
               else Some itr
             else Some itr);
  let n := if counthint_max <? ts_count s then 0 else ts_count s + 1 in
  do (b, itr) <- hasNext itr;
  if b then do itr <- next itr; Some (true, mkTs (Some itr) n)
  else Some (false, mkTs None n).
(** 1122-1138 and 1159-1184, first, for an iterator that getPermuted has opened. *)
Definition tsa_first (n : Z) (itr : pitr) : option (bool * ts_st) :=
  do itr <- ignoreSecondColumn itr;
  do (b, itr) <- hasNext itr;
  if b then do itr <- next itr; Some (true, mkTs (Some itr) n)
  else Some (false, mkTs None n).
(** 1081-1083, getCount, which may change the iterator. *)
Definition tsa_count (s : ts_st) : option (Z * ts_st) :=
  do itr <- ts_itr s; do (c, itr) <- getCount itr; Some (c, mkTs (Some itr) (ts_count s)).

(** ** AggregatedIndexScan *)
(** The operator: its TridentScan, and stop1, stop2 and filter taken from the registers in first. *)
Record as_st := mkAs { as_ts : ts_st; as_f : Z * Z }.
Inductive averdict := ASkip | AStop | ARow (a b : Z).
(** 285-413, the four operators that create chooses (272-282): the check and the registers after
    scan->first or scan->next has found a row; the registers of bound columns are not written. *)
Definition as_check (b1 b2 : bool) (f : Z * Z) (v1 v2 : Z) : averdict :=
  let '(f1, f2) := f in
  match b1, b2 with
  | false, false => ARow v1 v2
  | false, true => if negb (v2 =? f2) then ASkip else ARow v1 f2
  | true, false => if f1 <? v1 then AStop else ARow f1 v2
  | true, true => if (f1 <? v1) || ((v1 =? f1) && (f2 <? v2)) then AStop else ARow f1 f2
  end.
(** What the operators do with the row on which the scan stands; [again] is the next turn of the loop.
    The result: the two registers and the number of rows, which is the value that is returned. *)
Definition as_take (b1 b2 : bool) (again : as_st -> option (option elem * as_st)) (s : as_st) : option (option elem * as_st) :=
  do itr <- ts_itr (as_ts s);
  match as_check b1 b2 (as_f s) (key itr) (value1 itr) with
  | ASkip => again s
  | AStop => Some (None, s)
  | ARow a b => do (c, t) <- tsa_count (as_ts s); Some (Some (a, b, c), mkAs t (as_f s))
  end.
(** 299-311, 330-344, 362-374, 398-411, next.  [fuel] bounds the number of turns of ScanFilter2. *)
Fixpoint as_next (fuel : nat) (b1 b2 : bool) (h : ahint) (s : as_st) : option (option elem * as_st) :=
  match fuel with
  | O => None
  | S fuel' =>
    do (b, t) <- tsa_next h (as_ts s);
    let s := mkAs t (as_f s) in
    if b then as_take b1 b2 (as_next fuel' b1 b2 h) s else Some (None, s)
  end.
(** 285-297, 313-328, 346-360, 376-396, first.  [open] is what getPermuted answers for the constrained
    columns (the last one is not constrained), [n0] countHint. *)
Definition as_first (fuel : nat) (n0 : Z) (b1 b2 : bool) (open : option Z -> option Z -> option Z -> option pitr) (h : ahint) (f : Z * Z)
  : option (option elem * as_st) :=
  let '(f1, f2) := f in
  do itr <- (match b1, b2 with
             | true, false => open (Some f1) None None
             | true, true => open (Some f1) (Some f2) None
             | false, _ => open None None None
             end);
  do (b, t) <- tsa_first n0 itr;
  let s := mkAs t f in
  if b then as_take b1 b2 (as_next fuel b1 b2 h) s else Some (None, s).
(** The operator above: first, and next until 0 is returned. *)
Fixpoint as_rest (n fuel : nat) (b1 b2 : bool) (h : ahint) (s : as_st) : option (list elem) :=
  match n with
  | O => None
  | S n' =>
    do (r, s) <- as_next fuel b1 b2 h s;
    match r with
    | Some r => do t <- as_rest n' fuel b1 b2 h s; Some (r :: t)
    | None => Some []
    end
  end.
(** The hints are those of a scan that is not part of a merge join and whose registers have no
    domains: the registers of the bound columns hold the constants (rdf3x/src/cts/CodeGen.cpp 113-134). *)
Definition own_hint (b1 b2 : bool) (f : Z * Z) : ahint :=
  (mkHcol (if b1 then Some (fst f) else None) [] None, mkHcol (if b2 then Some (snd f) else None) [] None).
Definition as_run (n fuel : nat) (n0 : Z) (b1 b2 : bool) (open : option Z -> option Z -> option Z -> option pitr) (f : Z * Z) : option (list elem) :=
  do (r, s) <- as_first fuel n0 b1 b2 open (own_hint b1 b2 f) f;
  match r with
  | Some r => do t <- as_rest n fuel b1 b2 (own_hint b1 b2 f) s; Some (r :: t)
  | None => Some []
  end.

(** ** FullyAggregatedIndexScan *)
(** rdf3x/src/rts/FullyAggregatedIndexScan.cpp 251-265, ScanPrefix1::first, for a pattern with a constant and two
    variables that are used nowhere else (rdf3x/src/cts/PlanGen.cpp 552-562): TridentLayer.cpp 1140-1142, first(el,
    constrained) throws unless nothing is aggregated. *)
Inductive aggr := AGGR_NO | AGGR_SKIP_LAST | AGGR_SKIP_2LAST.
Definition ts_first1 (a : aggr) (n : Z) (open : option Z -> option Z -> option Z -> option pitr) (el : Z) (constrained : bool) : option (bool * ts_st) :=
  match a with
  | AGGR_NO => do itr <- open (if constrained then Some el else None) None None; ts_first n itr
  | _ => None
  end.
Definition fas_prefix1_first (n : Z) (open : option Z -> option Z -> option Z -> option pitr) (stop1 : Z) : option (bool * ts_st) :=
  ts_first1 AGGR_SKIP_2LAST n open stop1 true.
