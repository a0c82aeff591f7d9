(** Index scans of a query: IndexScan (rdf3x/src/rts/IndexScan.cpp) over TridentScan
    (src/layers/TridentLayer.cpp), with the hints that let the scan skip rows. *)
From Verif Require Export ItrModel DomModel.
Local Open Scope Z_scope.

(** A uint64_t that is passed as an int64_t. *)
Definition to_i64 (v : Z) : Z := if v <? 2 ^ 63 then v else v - 2 ^ 64.

(** ** Hints *)
(** What IndexScanHint::next reads for one column when it is called: the value of the register if the
    column is bound, the values of the registers in the merge list, the domain of the register. *)
Record hcol := mkHcol { h_bound : option Z; h_merge : list Z; h_dom : option dom }.
Definition hint : Type := hcol * hcol * hcol.
(** IndexScan.cpp 157, 165, 183, 190, 206, 213, 219: [(~v) && (v > value)]. *)
Definition raise (v value : Z) : bool := negb (v =? umax) && (value <? v).
(** IndexScan.cpp 154-178: the first value. *)
Definition hint1 (c : hcol) (s : Z * Z * Z) : option (Z * Z * Z) :=
  let up := fun s v => if raise v (fst (fst s)) then (v, 0, 0) else s in
  let s := match h_bound c with Some v => up s v | None => s end in
  let s := fold_left up (h_merge c) s in
  match h_dom c with
  | Some d => do v <- nextCandidate d (fst (fst s)); if fst (fst s) <? v then Some (v, 0, 0) else Some s
  | None => Some s
  end.
(** IndexScan.cpp 180-201: the second value. *)
Definition hint2 (c : hcol) (s : Z * Z * Z) : option (Z * Z * Z) :=
  let up := fun s v => if raise v (snd (fst s)) then (fst (fst s), v, 0) else s in
  let s := match h_bound c with Some v => up s v | None => s end in
  let s := fold_left up (h_merge c) s in
  match h_dom c with
  | Some d => do v <- nextCandidate d (snd (fst s)); if snd (fst s) <? v then Some (fst (fst s), v, 0) else Some s
  | None => Some s
  end.
(** IndexScan.cpp 203-222: the third value. *)
Definition hint3 (c : hcol) (s : Z * Z * Z) : option (Z * Z * Z) :=
  let up := fun s v => if raise v (snd s) then (fst s, v) else s in
  let s := match h_bound c with Some v => up s v | None => s end in
  let s := fold_left up (h_merge c) s in
  match h_dom c with
  | Some d => do v <- nextCandidate d (snd s); if raise v (snd s) then Some (fst s, v) else Some s
  | None => Some s
  end.
(** IndexScan.cpp 151-223, IndexScanHint::next(value1, value2, value3). *)
Definition hint_next (h : hint) (s : Z * Z * Z) : option (Z * Z * Z) :=
  let '(c1, c2, c3) := h in
  do s <- hint1 c1 s; do s <- hint2 c2 s; hint3 c3 s.

(** ** TridentScan with AGGR_NO, include/layers/TridentLayer.hpp 34-72 *)
(** itr ([None] is NULL) and countHint. *)
Record ts_st := mkTs { ts_itr : option pitr; ts_count : Z }.
(** TridentLayer.hpp 32. *)
Definition counthint_max : Z := 1.
(** TridentLayer.cpp 1085-1120, TridentScan::next, with a = AGGR_NO and a hint that is set; the values
    of the row are not negative, so that the comparison of p with a signed number is the usual one. *)
Definition ts_next (h : hint) (s : ts_st) : option (bool * ts_st) :=
  do itr <- ts_itr s;
  do itr <- (if ts_count s =? 0 then
               do (_, p, o) <- hint_next h (0, 0, 0);
               if value1 itr <? p then moveto itr (to_i64 p) (to_i64 o) else Some itr
             else Some itr);
  let n := if counthint_max <? ts_count s then 0 else ts_count s + 1 in
  do (b, itr) <- hasNext itr;
  if b then do itr <- next itr; Some (true, mkTs (Some itr) n)
  else Some (false, mkTs None n).
(** TridentLayer.cpp 1140-1157, 1159-1184, 1186-1214: first, for an iterator that getPermuted has
    opened; 1122-1138, the variant without values, keeps the iterator.  countHint keeps its value [n]. *)
Definition ts_first (n : Z) (itr : pitr) : option (bool * ts_st) :=
  do (b, itr) <- hasNext itr;
  if b then do itr <- next itr; Some (true, mkTs (Some itr) n)
  else Some (false, mkTs None n).

(** ** IndexScan *)
(** The operator: its TridentScan, and stop1/filter1 etc. taken from the registers in first.
    The registers of the three columns of the index order are the triple that the calls return. *)
Record is_st := mkIs { is_ts : ts_st; is_f : Z * Z * Z }.
(** The row on which the scan stands. *)
Definition ts_row (s : ts_st) : option (Z * Z * Z) := do o <- ts_itr s; Some (cur o).
(** What the scans do with a row: leave it out, end, or set the registers. *)
Inductive verdict := Skip | Stop | Row (r : Z * Z * Z).
(** IndexScan.cpp 407-635, the eight operators that create chooses (377-404), by which of the three columns are bound:
    the check and the registers after scan->first or scan->next has found a row.  [f] are the values
    that the registers had in first; the registers of bound columns are not written. *)
Definition is_check (b1 b2 b3 : bool) (f r : Z * Z * Z) : verdict :=
  let '(f1, f2, f3) := f in
  let '(v1, v2, v3) := r in
  match b1, b2, b3 with
  | false, false, false => Row (v1, v2, v3)
  | false, true, false => if negb (v2 =? f2) then Skip else Row (v1, f2, v3)
  | false, false, true => if negb (v3 =? f3) then Skip else Row (v1, v2, f3)
  | false, true, true => if negb (v2 =? f2) || negb (v3 =? f3) then Skip else Row (v1, f2, f3)
  | true, false, false => if f1 <? v1 then Stop else Row (f1, v2, v3)
  | true, false, true => if f1 <? v1 then Stop else if negb (v3 =? f3) then Skip else Row (f1, v2, f3)
  | true, true, false => if (f1 <? v1) || ((v1 =? f1) && (f2 <? v2)) then Stop else Row (f1, f2, v3)
  | true, true, true =>
    if (f1 <? v1) || ((v1 =? f1) && ((f2 <? v2) || ((v2 =? f2) && (f3 <? v3)))) then Stop else Row (f1, f2, f3)
  end.
(** The next functions: IndexScan.cpp 420-430, 447-460, 477-490, 507-519, 536-547, 566-580,
    597-607, 625-635.  The operators that skip rows loop; [fuel] bounds the number of turns. *)
Fixpoint is_next (fuel : nat) (b1 b2 b3 : bool) (h : hint) (s : is_st) : option (option (Z * Z * Z) * is_st) :=
  match fuel with
  | O => None
  | S fuel' =>
    do (b, t) <- ts_next h (is_ts s);
    let s := mkIs t (is_f s) in
    if b then
      do r <- ts_row t;
      match is_check b1 b2 b3 (is_f s) r with
      | Skip => is_next fuel' b1 b2 b3 h s
      | Stop => Some (None, s)
      | Row r => Some (Some r, s)
      end
    else Some (None, s)
  end.
(** The first functions: IndexScan.cpp 407-418, 432-445, 462-475, 492-505, 521-534, 549-564,
    582-595, 609-623.  [open] is TridentScan::first up to the call of hasNext: what getPermuted answers for the
    constrained columns. *)
Definition is_first (fuel : nat) (n0 : Z) (b1 b2 b3 : bool) (open : option Z -> option Z -> option Z -> option pitr) (h : hint) (f : Z * Z * Z)
  : option (option (Z * Z * Z) * is_st) :=
  let '(f1, f2, f3) := f in
  do itr <- (match b1, b2, b3 with
             | true, false, _ => open (Some f1) None None
             | true, true, false => open (Some f1) (Some f2) None
             | true, true, true => open (Some f1) (Some f2) (Some f3)
             | false, _, _ => open None None None
             end);
  do (b, t) <- ts_first n0 itr;
  let s := mkIs t f in
  if b then
    do r <- ts_row t;
    match is_check b1 b2 b3 f r with
    | Skip => is_next fuel b1 b2 b3 h s
    | Stop => Some (None, s)
    | Row r => Some (Some r, s)
    end
  else Some (None, s).
(** The operator above: first, and next until there is no row.  [hs] gives what the registers and the
    domains hold at each call of next. *)
Fixpoint is_rest (n fuel : nat) (b1 b2 b3 : bool) (hs : nat -> hint) (i : nat) (s : is_st) : option (list (Z * Z * Z)) :=
  match n with
  | O => None
  | S n' =>
    do (r, s) <- is_next fuel b1 b2 b3 (hs i) s;
    match r with
    | Some r => do t <- is_rest n' fuel b1 b2 b3 hs (S i) s; Some (r :: t)
    | None => Some []
    end
  end.
Definition is_run (n fuel : nat) (n0 : Z) (b1 b2 b3 : bool) (open : option Z -> option Z -> option Z -> option pitr) (hs : nat -> hint) (f : Z * Z * Z) : option (list (Z * Z * Z)) :=
  do (r, s) <- is_first fuel n0 b1 b2 b3 open (hs O) f;
  match r with
  | Some r => do t <- is_rest n fuel b1 b2 b3 hs 1 s; Some (r :: t)
  | None => Some []
  end.
