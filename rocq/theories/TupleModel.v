(** In-memory tables of tuples: src/trident/model/table.cpp, include/trident/model/table.h. *)
From Coq Require Export ZArith List Bool Lia.
Export ListNotations.
From Verif Require Export ItrModel.
Local Open Scope Z_scope.

(** A row: the sizeRow numbers of it. *)
Notation row := (list Z).

(** The fields sizeRow, signature, values and empty.  Simplification: values, which is one vector,
    is cut into rows; a table with sizeRow = 0 has at most one row, which is kept in [empty] only. *)
Record tuples := mkTuples { tt_size : nat; tt_sig : list Z; tt_rows : list row; tt_empty : bool }.

(** table.h 108-113, getNRows. *)
Definition tt_nrows (t : tuples) : nat :=
  match tt_size t with O => if tt_empty t then 0 else 1 | S _ => length (tt_rows t) end.
(** table.h 115-120, addRow. *)
Definition tt_add (t : tuples) (r : row) : tuples :=
  mkTuples (tt_size t) (tt_sig t) (match tt_size t with O => [] | S _ => tt_rows t ++ [r] end) false.
Definition tt_adds (t : tuples) (l : list row) : tuples := fold_left tt_add l t.
(** table.h 91-98, the constructors. *)
Definition tt_new (size : nat) (sig : list Z) : tuples := mkTuples size sig [] true.

(** What the callers of the constructors keep to (table.h 91-98): the rows have one value for each of the
    variables of the signature, and these are distinct. *)
Definition table_ok (t : tuples) : Prop :=
  tt_size t = length (tt_sig t) /\ tt_sig t <> [] /\ NoDup (tt_sig t) /\ Forall (fun r => length r = length (tt_sig t)) (tt_rows t).

(** A column of a row. *)
Definition col (r : row) (i : nat) : Z := nth i r 0.

(** table.cpp 559-567, cmp over the whole row. *)
Fixpoint cmp_row (r1 r2 : row) : comparison :=
  match r1, r2 with
  | a :: r1, b :: r2 => if a <? b then Lt else if b <? a then Gt else cmp_row r1 r2
  | _, _ => Eq
  end.
(** table.cpp 569-578, cmp over pairs of columns. *)
Fixpoint cmp_at (ps : list (nat * nat)) (r1 r2 : row) : comparison :=
  match ps with
  | [] => Eq
  | (i, j) :: ps => if col r1 i <? col r2 j then Lt else if col r2 j <? col r1 i then Gt else cmp_at ps r1 r2
  end.

(** ** Sorting *)

(** table.h 63-69, Sorter::operator(). *)
Fixpoint sorter (fields : list nat) (r1 r2 : row) : bool :=
  match fields with
  | [] => false
  | f :: fields => if negb (col r1 f =? col r2 f) then col r1 f <? col r2 f else sorter fields r1 r2
  end.
(** table.cpp 87-104, sortBy.  [srt] is what std::sort does with a comparison; more than 8 fields
    throw (table.h 47-51).  A table without columns but with a row throws (values.at(0)). *)
Definition tt_sortBy (srt : (row -> row -> bool) -> list row -> list row) (fields : list nat) (t : tuples) : option tuples :=
  if (8 <? length fields)%nat then None
  else match tt_size t with
       | O => if tt_empty t then Some (tt_new 0 (tt_sig t)) else None
       | S _ => Some (tt_adds (tt_new (tt_size t) (tt_sig t)) (srt (sorter fields) (tt_rows t)))
       end.

(** ** retain and merge *)

(** table.cpp 127-181, retain: [l1], [l2] are the rows that itr1 and itr2 have not passed; [p1]
    and [p2] are row1 and row2 if toRead1 and toRead2 are false; [prev] is prevrow1. *)
Fixpoint retain_loop (fuel : nat) (l1 l2 : list row) (p1 prev p2 : option row) (out : list row) : option (list row) :=
  match fuel with
  | O => None
  | S fuel =>
    match l1, l2 with
    | x :: t1, y :: t2 =>
      let go (r1 : row) (l1 : list row) (prev : option row) :=
        let (r2, l2) := match p2 with Some r => (r, l2) | None => (y, t2) end in
        match cmp_row r1 r2 with
        | Eq => retain_loop fuel l1 l2 None prev None out
        | Lt => retain_loop fuel l1 l2 None prev (Some r2) (out ++ [r1])
        | Gt => retain_loop fuel l1 l2 (Some r1) prev None out
        end in
      match p1 with
      | Some r => go r l1 prev
      | None =>
        match prev with
        | Some q => match cmp_row q x with Eq => retain_loop fuel t1 l2 None prev p2 out | _ => go x t1 (Some x) end
        | None => go x t1 (Some x)
        end
      end
    | _, _ => Some (out ++ (match p1 with Some r => [r] | None => [] end) ++ l1)
    end
  end.
(** Rows are appended with copyArray, which does not change [empty]. *)
Definition tt_retain (t1 t2 : tuples) : option tuples :=
  do l <- retain_loop (S (length (tt_rows t1) + length (tt_rows t2))) (tt_rows t1) (tt_rows t2) None None None [];
  Some (mkTuples (tt_size t1) [] l true).

(** table.cpp 183-236, merge. *)
Fixpoint merge_loop (fuel : nat) (l1 l2 : list row) (p1 p2 : option row) (out : list row) : option (list row) :=
  match fuel with
  | O => None
  | S fuel =>
    let n1 := match p1 with Some r => Some (r, l1) | None => match l1 with x :: t => Some (x, t) | [] => None end end in
    let n2 := match p2 with Some r => Some (r, l2) | None => match l2 with x :: t => Some (x, t) | [] => None end end in
    match n1, n2 with
    | Some (r1, l1), Some (r2, l2) =>
      match cmp_row r1 r2 with
      | Lt => merge_loop fuel l1 l2 None (Some r2) (out ++ [r1])
      | Gt => merge_loop fuel l1 l2 (Some r1) None (out ++ [r2])
      | Eq => merge_loop fuel l1 l2 None None (out ++ [r1])
      end
    | _, _ => Some (out ++ (match p1 with Some r => [r] | None => [] end) ++ l1 ++ (match p2 with Some r => [r] | None => [] end) ++ l2)
    end
  end.
Definition tt_merge (t1 t2 : tuples) : option tuples :=
  do l <- merge_loop (S (length (tt_rows t1) + length (tt_rows t2))) (tt_rows t1) (tt_rows t2) None None [];
  Some (mkTuples (tt_size t1) [] l true).

(** ** Joins *)

(** table.cpp 245-255, getPosJoins, and the same loops in 263-270 and 426-433.
    Simplification: positions are not cut to 8 bits; with 256 or more columns the loops do not end. *)
Definition tt_posJoins (s1 s2 : list Z) : list (nat * nat) :=
  flat_map (fun i => flat_map (fun j => if nth i s1 0 =? nth j s2 0 then [(i, j)] else []) (seq 0 (length s2))) (seq 0 (length s1)).

(** table.cpp 516-525 and 315-324: the rows from [l] on that compare as equal to [r]. *)
Fixpoint span (ps : list (nat * nat)) (r : row) (l : list row) : list row * list row :=
  match l with
  | x :: t => match cmp_at ps r x with Eq => let (a, b) := span ps r t in (x :: a, b) | _ => ([], l) end
  | [] => ([], [])
  end.
(** table.cpp 495-546 and 297-333: the ranges that are joined.  Simplification: in place of idx1
    and idx2 the rows from them on. *)
Fixpoint ranges (fuel : nat) (ps : list (nat * nat)) (l1 l2 : list row) : option (list (list row * list row)) :=
  match fuel with
  | O => None
  | S fuel =>
    match l1, l2 with
    | r1 :: t1, r2 :: t2 =>
      match cmp_at ps r1 r2 with
      | Lt => ranges fuel ps t1 l2
      | Gt => ranges fuel ps l1 t2
      | Eq =>
        let (a1, b1) := span (map (fun p => (fst p, fst p)) ps) r1 t1 in
        let (a2, b2) := span (map (fun p => (snd p, snd p)) ps) r2 t2 in
        do l <- ranges fuel ps b1 b2; Some ((r1 :: a1, r2 :: a2) :: l)
      end
    | _, _ => Some []
    end
  end.
(** The scan works on the tables themselves, not on sortedTable1 and sortedTable2 (492-493, 503-505). *)
Definition tt_ranges (ps : list (nat * nat)) (t1 t2 : tuples) : option (list (list row * list row)) :=
  ranges (S (length (tt_rows t1) + length (tt_rows t2))) ps (tt_rows t1) (tt_rows t2).

(** table.cpp 457-473: posToCopy. *)
Definition tt_toCopy (ps : list (nat * nat)) (n2 : nat) : list nat :=
  if (length ps <? n2)%nat then filter (fun i => negb (existsb (fun p => Nat.eqb i (snd p)) ps)) (seq 0 n2) else [].

(** table.cpp 420-551, join. *)
Definition tt_join (srt : (row -> row -> bool) -> list row -> list row) (t1 t2 : tuples) : option tuples :=
  match tt_sig t1, tt_sig t2 with
  | [], _ | _, [] => None
  | s1, s2 =>
    match tt_posJoins s1 s2 with
    | [] => Some (tt_adds (tt_new (length (s1 ++ s2)) (s1 ++ s2)) (flat_map (fun r1 => map (fun r2 => r1 ++ r2) (tt_rows t2)) (tt_rows t1)))
    | ps =>
      let cp := tt_toCopy ps (tt_size t2) in
      let sig := s1 ++ map (fun i => nth i s2 0) cp in
      do _ <- tt_sortBy srt (map fst ps) t1;
      do _ <- tt_sortBy srt (map snd ps) t2;
      do rs <- tt_ranges ps t1 t2;
      Some (tt_adds (tt_new (length sig) sig)
        (flat_map (fun ab => flat_map (fun r1 => map (fun r2 => r1 ++ map (col r2) cp) (snd ab)) (fst ab)) rs))
    end
  end.

(** table.cpp 257-346, joinHitRates: stats.size; [Some None] if it is not set (272-276). *)
Definition tt_hits (srt : (row -> row -> bool) -> list row -> list row) (t1 t2 : tuples) : option (option Z) :=
  match tt_sig t1, tt_sig t2 with
  | [], _ | _, [] => None
  | s1, s2 =>
    match tt_posJoins s1 s2 with
    | [] => Some None
    | ps =>
      do _ <- tt_sortBy srt (map fst ps) t1;
      do _ <- tt_sortBy srt (map snd ps) t2;
      do rs <- tt_ranges ps t1 t2;
      Some (Some (fold_left (fun n ab => n + Z.of_nat (length (fst ab)) * Z.of_nat (length (snd ab))) rs 0))
    end
  end.

(** table.cpp 348-418, getDenseSparseForBifocalSampling: the sizes of the groups of rows of the
    sorted table that agree on the join fields (370-405). *)
Fixpoint group_sizes (fields : list nat) (prev : row) (l : list row) (n : nat) : list nat :=
  match l with
  | [] => [n]
  | x :: t => if forallb (fun f => col x f =? col prev f) fields then group_sizes fields x t (S n) else n :: group_sizes fields x t 1
  end.
(** The rows are taken from the table itself, not from the sorted one (388, 393, 406, 411).  The
    comparison with the square root of the number of rows is one of squares. *)
Fixpoint split_groups (n : nat) (sizes : list nat) (l : list row) (dense sparse : list row) : list row * list row :=
  match sizes with
  | [] => (dense, sparse)
  | k :: sizes =>
    if (n <? k * k)%nat then split_groups n sizes (skipn k l) (dense ++ firstn k l) sparse
    else split_groups n sizes (skipn k l) dense (sparse ++ firstn k l)
  end.
Definition tt_denseSparse (srt : (row -> row -> bool) -> list row -> list row) (t1 t2 : tuples) : option (tuples * tuples) :=
  let fields := map fst (tt_posJoins (tt_sig t1) (tt_sig t2)) in
  do s <- tt_sortBy srt fields t1;
  match tt_rows s with
  | [] => None
  | x :: t =>
    let (d, p) := split_groups (length (tt_rows s)) (group_sizes fields x t 1) (tt_rows t1) [] [] in
    Some (tt_adds (tt_new (tt_size t1) (tt_sig t1)) d, tt_adds (tt_new (tt_size t1) (tt_sig t1)) p)
  end.

(** ** The iterator *)

(** table.h 180-193: counter, skipLast, hnc, hn and nextpos. *)
Record titer := mkTiter { ti_counter : Z; ti_skip : bool; ti_hnc : bool; ti_hn : bool; ti_next : Z }.
Definition ti_new : titer := mkTiter (-1) false false false 0.
(** table.cpp 83-85, skipLastColumn. *)
Definition ti_skipLast (i : titer) : titer := mkTiter (ti_counter i) true (ti_hnc i) (ti_hn i) (ti_next i).
(** table.h 170-173, getPosAtRow: at throws outside of values.  The row is an uint32_t. *)
Definition ti_at (t : tuples) (r : Z) (c : nat) : option Z :=
  nth_error (concat (tt_rows t)) (Z.to_nat (r mod 2 ^ 32) * tt_size t + c).
(** table.cpp 31-34, same. *)
Definition ti_same (t : tuples) (l1 l2 : Z) : option bool :=
  do a <- ti_at t l1 0; do b <- ti_at t l2 0;
  if a =? b then do c <- ti_at t l1 1; do d <- ti_at t l2 1; Some (c =? d) else Some false.
(** table.cpp 42-44 and 74-76, the loops. *)
Fixpoint ti_advance (fuel : nat) (t : tuples) (counter next : Z) : option Z :=
  match fuel with
  | O => None
  | S fuel => if next <? Z.of_nat (tt_nrows t) then do s <- ti_same t counter next; if s then ti_advance fuel t counter (next + 1) else Some next else Some next
  end.
(** table.cpp 36-53, hasNext. *)
Definition ti_hasNext (t : tuples) (i : titer) : option (bool * titer) :=
  match tt_size t with
  | O => Some (if ti_counter i =? -1 then negb (tt_empty t) else false, i)
  | S _ =>
    if ti_hnc i then Some (ti_hn i, i)
    else if ti_skip i && negb (ti_counter i =? -1) then
      do n <- ti_advance (S (tt_nrows t)) t (ti_counter i) (ti_next i);
      let hn := n <? Z.of_nat (tt_nrows t) in Some (hn, mkTiter (ti_counter i) (ti_skip i) true hn n)
    else
      let hn := ti_counter i + 1 <? Z.of_nat (tt_nrows t) in
      Some (hn, mkTiter (ti_counter i) (ti_skip i) true hn (ti_counter i + 1))
  end.
(** table.cpp 55-61, next: the counter is set to nextpos in all cases. *)
Definition ti_next1 (i : titer) : titer := mkTiter (ti_next i) (ti_skip i) false (ti_hn i) (ti_next i).
(** table.cpp 67-69, getElementAt. *)
Definition ti_elem (t : tuples) (i : titer) (c : nat) : option Z := ti_at t (ti_counter i) c.
(** table.cpp 72-81, count. *)
Definition ti_count (t : tuples) (i : titer) : option (Z * titer) :=
  if ti_skip i then
    do n <- ti_advance (S (tt_nrows t)) t (ti_counter i) (ti_next i);
    Some (n - ti_counter i, mkTiter (ti_counter i) true (ti_hnc i) (ti_hn i) n)
  else Some (1, i).

(** ** Client code *)
(** All columns of the current row. *)
Fixpoint ti_cols (t : tuples) (i : titer) (c n : nat) : option row :=
  match n with O => Some [] | S n => do a <- ti_elem t i c; do r <- ti_cols t i (S c) n; Some (a :: r) end.
(** while (hasNext()) \{ next(); read the first [w] columns; perhaps count() \}. *)
Fixpoint ti_walk (fuel : nat) (w : nat) (cnt : bool) (t : tuples) (i : titer) : option (list (row * Z)) :=
  match fuel with
  | O => None
  | S fuel =>
    do h <- ti_hasNext t i;
    if fst h then
      let i := ti_next1 (snd h) in
      do r <- ti_cols t i 0 w;
      if cnt then do c <- ti_count t i; do l <- ti_walk fuel w cnt t (snd c); Some ((r, fst c) :: l)
      else do l <- ti_walk fuel w cnt t i; Some ((r, 0) :: l)
    else Some []
  end.
