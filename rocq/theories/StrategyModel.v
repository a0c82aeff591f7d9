(** The storage strategy byte: how a layout is chosen for a table, coded, and decoded by the
    writer and by the reader. *)
From Verif Require Export ColumnModel.
Local Open Scope Z_scope.

(** include/trident/kb/consts.h 52-57. *)
Definition ROW_ITR := 0.
Definition CLUSTER_ITR := 1.
Definition COLUMN_ITR := 2.
Definition NEWCOLUMN_ITR := 3.
Definition NEWROW_ITR := 4.
Definition NEWCLUSTER_ITR := 5.

(** consts.h 97. *)
Definition THRESHOLD_KEEP_MEMORY := 1000 * 1024.

(** Conversion of an unsigned to a (signed) char, and of a char to an unsigned. *)
Definition to_char (v : Z) : Z := (v + 128) mod 256 - 128.
Definition to_unsigned (v : Z) : Z := v mod 2 ^ 32.

(** include/trident/binarytables/storagestrat.h 202-204, getStorageType(unsigned). *)
Definition getStorageType (sig : Z) : Z := Z.land (Z.shiftr (to_unsigned sig) 5) 7.
(** storagestrat.h 164-167, isAggregated(char). *)
Definition isAggregated (sig : Z) : bool :=
  negb (Z.land sig 1 =? 0) && negb (getStorageType sig =? NEWCLUSTER_ITR).
(** storagestrat.h 169-179. *)
Definition setStorageType (sig ty : Z) : Z := Z.lor sig (Z.shiftl ty 5).
Definition setBytesField1 (sig nb : Z) : Z := Z.lor sig (Z.shiftl nb 3).
Definition setBytesField2 (sig nb : Z) : Z := Z.lor sig (Z.shiftl nb 1).
(** storagestrat.h 144-150. *)
Definition setAggregated (sig : Z) (a : bool) : Z := if a then Z.lor sig 1 else Z.land sig 254.

(** The reader chosen for a table, by the sizes of its template arguments. *)
Inductive reader := RColumn | RRow (w1 w2 : nat) | RCluster (w1 w2 wc : nat).

(** include/trident/binarytables/factorytables.h 991-1045, FactoryNewRowTable::get. *)
Definition get_row (c1 c2 : Z) : option reader :=
  if (0 <=? c1) && (c1 <=? 3) && (0 <=? c2) && (c2 <=? 3)
  then Some (RRow (width_of_code c1) (width_of_code c2))
  else if (c1 =? 3) && (c2 =? 4) then Some (RRow 5 8)
  else None.

(** factorytables.h 476-593, FactoryNewClusterTable::get. *)
Definition get_cluster (c1 c2 n : Z) : option reader :=
  if (0 <=? c1) && (c1 <=? 3) && (0 <=? c2) && (c2 <=? 3)
  then Some (RCluster (width_of_code c1) (width_of_code c2) (if n =? 1 then 1%nat else 4%nat))
  else None.

(** src/trident/binarytables/storagestrat.cpp 54-78, getBinaryTable(char). *)
Definition getBinaryTable (sig : Z) : option reader :=
  let ty := getStorageType sig in
  if ty =? NEWCOLUMN_ITR then Some RColumn
  else if ty =? NEWROW_ITR then
    get_row (Z.land (Z.shiftr sig 3) 3)
      (if isAggregated sig then 4 else Z.land (Z.shiftr sig 1) 3)
  else if ty =? NEWCLUSTER_ITR then
    get_cluster (Z.land (Z.shiftr sig 3) 3) (Z.land (Z.shiftr sig 1) 3)
      (if Z.land sig 1 =? 0 then 1 else 4)
  else None.

(** The writer chosen for a table, by the width codes given to it.  The writers of the old
    layouts (getBinaryTableInserter, lines 82-99) are not modelled; no reader reads them. *)
Inductive inserter := IOld (ty : Z) | IColumn | IRow (c1 c2 : Z) | ICluster (c1 c2 n : Z).

(** storagestrat.cpp 80-128, getBinaryTableInserter(char). *)
Definition getBinaryTableInserter (sig : Z) : option inserter :=
  let ty := getStorageType sig in
  if (ty =? ROW_ITR) || (ty =? CLUSTER_ITR) || (ty =? COLUMN_ITR) then Some (IOld ty)
  else if ty =? NEWCOLUMN_ITR then Some IColumn
  else if ty =? NEWROW_ITR then
    Some (IRow (Z.land (Z.shiftr sig 3) 3)
               (if isAggregated sig then 4 else Z.land (Z.shiftr sig 1) 3))
  else if ty =? NEWCLUSTER_ITR then
    Some (ICluster (Z.land (Z.shiftr sig 3) 3) (Z.land (Z.shiftr sig 1) 3)
                   (if Z.land sig 1 =? 0 then 1 else 4))
  else None.

(** The bytes a writer produces for a list of pairs: startAppend, append for each, stopAppend.
    newrowtableinserter.cpp 37-69 and newclustertableinserter.cpp 45-92 switch on the codes. *)
Definition ins_write (th : Z) (i : inserter) (l : list (Z * Z)) : option (list Z) :=
  match i with
  | IOld _ => None
  | IColumn => Some (col_write th l)
  | IRow c1 c2 => Some (row_write (width_of_code c1) (width_of_code c2) l)
  | ICluster c1 c2 n =>
    Some (cl_write (width_of_code c1) (width_of_code c2) (if n =? 1 then 1%nat else 4%nat) l)
  end.

(** src/trident/kb/querier.cpp 646-687, initNewIterator with setConstraints, on the table at
    [s, e); setKey as in 1006-1011. *)
Definition tbl_open (r : reader) (m : mem) (k v1 v2 s e : Z) : option pitr :=
  match r with
  | RColumn =>
    do st <- (if v1 =? -1 then col_setup m k s e
              else if v2 =? -1 then col_setup1 m k v1 s e else col_setup2 m k v1 v2 s e);
    Some (col_obj st)
  | RRow w1 w2 =>
    do st <- (if v1 =? -1 then Some (row_setup w1 w2 m k s e)
              else if v2 =? -1 then row_setup1 w1 w2 m k v1 s e else row_setup2 w1 w2 m k v1 v2 s e);
    Some (row_obj st)
  | RCluster w1 w2 wc =>
    do st <- (if v1 =? -1 then Some (cl_setup w1 w2 wc m k s e)
              else if v2 =? -1 then cl_setup1 w1 w2 wc m k v1 s e else cl_setup2 w1 w2 wc m k v1 v2 s e);
    Some (cl_obj st)
  end.

(** storagestrat.cpp 130-148, getStrategy for the new layouts. *)
Definition getStrategy (ty compr1 compr2 : Z) (aggre : bool) : Z :=
  let strat := setStorageType 0 ty in
  let strat := setBytesField1 strat compr1 in
  let strat := setBytesField2 strat compr1 in
  let strat := if aggre then setAggregated strat aggre else strat in
  to_char strat.

(** storagestrat.cpp 27-52: the fixed strategies. *)
Definition FIXEDSTRAT5 : Z := setStorageType 0 NEWCOLUMN_ITR.
Definition FIXEDSTRAT6 : Z := setBytesField2 (setBytesField1 (setStorageType 0 NEWROW_ITR) 3) 3.
Definition FIXEDSTRAT7 : Z := Z.lor (setBytesField2 (setBytesField1 (setStorageType 0 NEWCLUSTER_ITR) 3) 3) 1.

(** src/trident/kb/inserter.cpp 28-30. *)
Definition STRATEGY_FOR_POS : Z := getStrategy NEWROW_ITR 3 4 true.

(** storagestrat.cpp 340-366: what one pass over the pairs computes. *)
Record ds_st := mkDs { ds_max1 : Z; ds_max2 : Z; ds_ngroups : Z; ds_maxg : Z; ds_cur : Z; ds_prev : Z }.
Definition ds_step (s : ds_st) (t : Z * Z) : ds_st :=
  let '(a, b) := t in
  let max1 := if ds_max1 s <? a then a else ds_max1 s in
  let max2 := if ds_max2 s <? b then b else ds_max2 s in
  let new := negb (a =? ds_prev s) in
  let cur := (if new then 0 else ds_cur s) + 1 in
  mkDs max1 max2 (if new then ds_ngroups s + 1 else ds_ngroups s)
    (if ds_maxg s <? cur then cur else ds_maxg s) cur (if new then a else ds_prev s).

(** storagestrat.cpp 378-394. *)
Definition flagbytes (nb : nat) : Z :=
  if (nb =? 1)%nat then 0 else if (nb =? 2)%nat then 1 else if (nb <? 5)%nat then 2 else 3.

(** storagestrat.cpp 331-423, determineStrategy; the statistics are left out.  [ncc] is
    nTermsClusterColumn. *)
Definition determineStrategy (l : list (Z * Z)) (ncc : Z) (useRow : bool) : Z :=
  let size := Z.of_nat (length l) in
  if size <? THRESHOLD_KEEP_MEMORY then
    let s := fold_left ds_step l (mkDs 0 0 0 0 0 (-1)) in
    if ncc <=? ds_ngroups s then to_char (setStorageType 0 NEWCOLUMN_ITR)
    else
      let nbc := if ds_maxg s <=? 255 then 1 else 4 in
      let nb1 := nbytes (ds_max1 s) in
      let nb2 := nbytes (ds_max2 s) in
      let f1 := flagbytes nb1 in
      let f2 := flagbytes nb2 in
      let spaceRow := size * (Z.of_nat nb1 + Z.of_nat nb2) in
      let spaceCluster := ds_ngroups s * (Z.of_nat nb1 + nbc) + Z.of_nat nb2 in
      if spaceRow <? spaceCluster then
        to_char (setBytesField2 (setBytesField1 (setStorageType 0 NEWROW_ITR) f1) f2)
      else
        let strat := setBytesField2 (setBytesField1 (setStorageType 0 NEWCLUSTER_ITR) f1) f2 in
        to_char (if 1 <? nbc then Z.lor strat 1 else strat)
  else if useRow then
    to_char (setBytesField2 (setBytesField1 (setStorageType 0 NEWROW_ITR) 3) 3)
  else to_char (setStorageType 0 NEWCOLUMN_ITR).
