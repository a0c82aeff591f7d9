(** Scans that skip two columns: FullyAggregatedIndexScan (rdf3x/src/rts/FullyAggregatedIndexScan.cpp)
    over a TridentScan with AGGR_SKIP_2LAST (src/layers/TridentLayer.cpp), which reads the list of terms
    of a permutation (Querier::getTermList).  A plan has such scans for patterns with two variables that
    are used nowhere else. *)
From Verif Require Export AggModel TsKbModel.
Local Open Scope Z_scope.

(** ** TermItr as an iterator *)
(** The position (KbModel) and cachedCount, include/trident/iterators/termitr.h 35-45. *)
Record kt_st := mkKt { kt_i : titr; kt_cached : Z }.
(** querier.cpp 898-905: the storage for permutation [perm] without enforcePerm, and termitr.cpp 170-174:
    the permutation whose number of triples is taken. *)
Definition kt_perm (perm : nat) : nat := if Nat.ltb 2 perm then (perm - 3)%nat else perm.
(** src/trident/iterators/termitr.cpp 162-177, getCount.  A term without coordinates for the permutation
    is [None]: the number in the code is then one that was not set. *)
Definition kt_count (d : db) (perm : nat) (s : kt_st) : option (Z * kt_st) :=
  if kt_cached s <? 0 then
    do r <- kb_lookup d (ti_key (kt_i s));
    do v <- r;
    do c <- v (kt_perm perm);
    Some (co_n c, mkKt (kt_i s) (co_n c))
  else Some (kt_cached s, s).
(** termitr.cpp 43-68, hasNext and next, which forgets the count. *)
Definition kt_hasNext (t : ts) (s : kt_st) : option (bool * kt_st) :=
  do (b, i) <- ti_hasNext t (kt_i s); Some (b, mkKt i (kt_cached s)).
Definition kt_next (s : kt_st) : option kt_st := do i <- ti_next (kt_i s); Some (mkKt i (-1)).
(** termitr.h 71-81: getValue1 and getValue2 are 0, ignoreSecondColumn throws; termitr.cpp 179-181, moveto throws.
    mark and reset are not modelled. *)
CoFixpoint kt_obj (d : db) (perm : nat) (t : ts) (s : kt_st) : pitr := {|
  hasNext := match kt_hasNext t s with Some (b, s1) => Some (b, kt_obj d perm t s1) | None => None end;
  next := match kt_next s with Some s1 => Some (kt_obj d perm t s1) | None => None end;
  value1 := 0; value2 := 0; key := ti_key (kt_i s);
  getCount := match kt_count d perm s with Some (c, s1) => Some (c, kt_obj d perm t s1) | None => None end;
  moveto := fun _ _ => None; ignoreSecondColumn := None; mark := None; reset := fun _ => None;
  setKey := fun k => kt_obj d perm t (mkKt (mkTitr (ti_cur (kt_i s)) (ti_ix (kt_i s)) (ti_off (kt_i s)) (ti_end (kt_i s)) (ti_mark (kt_i s)) k) (kt_cached s)) |}.

(** ** ReOrderTermItr *)
(** src/trident/iterators/reordertermitr.cpp 24-39: the values that the helper delivers; fillValuesP
    ignores the second column first. *)
Fixpoint ro_read (val : pitr -> Z) (fuel : nat) (o : pitr) : option (list Z) :=
  match fuel with
  | O => None
  | S f =>
    do (b, o1) <- hasNext o;
    if b then do o2 <- next o1; do l <- ro_read val f o2; Some (val o2 :: l) else Some []
  end.
(** reordertermitr.cpp 41-65: the values go into a set and from there into a sorted vector. *)
Fixpoint ro_insert (k : Z) (l : list Z) : list Z :=
  match l with
  | [] => [k]
  | x :: t => if k <? x then k :: l else if k =? x then l else x :: ro_insert k t
  end.
Definition ro_sort (l : list Z) : list Z := fold_right ro_insert [] l.
(** reordertermitr.cpp 41-65, fillValues. *)
Definition ro_fill (fuel : nat) (idx : nat) (helper : pitr) : option (list Z) :=
  do l <- (match idx with
           | 1%nat | 4%nat => ro_read value2 fuel helper
           | 2%nat | 5%nat => do h <- ignoreSecondColumn helper; ro_read value1 fuel h
           | _ => None
           end);
  Some (ro_sort l).
(** include/trident/iterators/reordertermitr.h 37-44: the keys that are left ([None] if they were not
    read yet) and the key. *)
Record ro_st := mkRo { ro_left : option (list Z); ro_key : Z }.
(** reordertermitr.cpp 74-84, hasNext and next; next needs keys that were read and one that is left. *)
Definition ro_hasNext (fuel idx : nat) (helper : pitr) (s : ro_st) : option (bool * ro_st) :=
  do l <- (match ro_left s with Some l => Some l | None => ro_fill fuel idx helper end);
  Some (match l with [] => false | _ => true end, mkRo (Some l) (ro_key s)).
Definition ro_next (s : ro_st) : option ro_st :=
  match ro_left s with Some (k :: l) => Some (mkRo (Some l) k) | _ => None end.
(** reordertermitr.h 61-104: getValue1 and getValue2 are 0, getCount is 1, ignoreSecondColumn does
    nothing, moveto throws.  mark and reset are not modelled. *)
CoFixpoint ro_obj (fuel idx : nat) (helper : pitr) (s : ro_st) : pitr := {|
  hasNext := match ro_hasNext fuel idx helper s with Some (b, s1) => Some (b, ro_obj fuel idx helper s1) | None => None end;
  next := match ro_next s with Some s1 => Some (ro_obj fuel idx helper s1) | None => None end;
  value1 := 0; value2 := 0; key := ro_key s;
  getCount := Some (1, ro_obj fuel idx helper s);
  moveto := fun _ _ => None; ignoreSecondColumn := Some (ro_obj fuel idx helper s); mark := None; reset := fun _ => None;
  setKey := fun k => ro_obj fuel idx helper (mkRo (ro_left s) k) |}.

(** ** Querier::getTermList *)
(** src/trident/kb/querier.cpp 775-785, for a database without updates (with updates: TermModel), and 898-913,
    getKBTermList; [k] is the key before the first call of next, which is not initialised. *)
Definition kb_getTermList (fuel : nat) (d : db) (perm : nat) (k : Z) : option pitr :=
  match d_files d (kt_perm perm) with
  | Some t => do i <- ti_init t; Some (kt_obj d perm t (mkKt i (-1)))
  | None =>
    if Nat.eqb (kt_perm perm) 0 then None
    else do h <- kb_query fuel d 0 (-1) (-1) (-1); Some (ro_obj fuel perm h (mkRo None k))
  end.

(** ** TridentScan with AGGR_SKIP_2LAST *)
(** TridentLayer.cpp 1085-1120, next: there is no hint for this aggregation. *)
Definition tsf_next (s : ts_st) : option (bool * ts_st) :=
  do itr <- ts_itr s;
  let n := if counthint_max <? ts_count s then 0 else ts_count s + 1 in
  do (b, itr) <- hasNext itr;
  if b then do itr <- next itr; Some (true, TsModel.mkTs (Some itr) n)
  else Some (false, TsModel.mkTs None n).
(** 1122-1129, first: as for a scan without values (ts_first); [open] is what getTermList answers. *)
Definition tsf_first (n : Z) (open : option pitr) : option (bool * ts_st) := do itr <- open; ts_first n itr.

(** ** FullyAggregatedIndexScan::Scan *)
(** FullyAggregatedIndexScan.cpp 226-249: the register and the number that is returned, after scan->first or
    scan->next. *)
Definition fas_take (r : bool * ts_st) : option (option (Z * Z) * ts_st) :=
  let '(b, s) := r in
  if b then
    do itr <- ts_itr s;
    do (c, s1) <- tsa_count s;
    Some (Some (key itr, c), s1)
  else Some (None, s).
Definition fas_first (n0 : Z) (open : option pitr) : option (option (Z * Z) * ts_st) := do r <- tsf_first n0 open; fas_take r.
Definition fas_next (s : ts_st) : option (option (Z * Z) * ts_st) := do r <- tsf_next s; fas_take r.
(** The operator above: first, and next until 0 is returned. *)
Fixpoint fas_rest (n : nat) (r : option (Z * Z) * ts_st) : option (list (Z * Z)) :=
  match n with
  | O => None
  | S n' =>
    match fst r with
    | None => Some []
    | Some (v, c) => if c =? 0 then Some [] else do r1 <- fas_next (snd r); do l <- fas_rest n' r1; Some ((v, c) :: l)
    end
  end.
Definition fas_run (n : nat) (n0 : Z) (open : option pitr) : option (list (Z * Z)) := do r <- fas_first n0 open; fas_rest n r.
