(** Hash joins of operators: src/trident/sparql/hashjoinitr.cpp, and the plan of a join in
    src/trident/sparql/joinplan.cpp. *)
From Verif Require Export TupleModel.
Local Open Scope Z_scope.

(** A child: getTupleFieldsIDs and what its iterator delivers.  Simplification: the names of
    variables are numbers; getOutputTupleSize is the number of names (sparqloperators.h, Scan);
    passing values sideways, which no operator supports (sparqloperators.h 54-56), is left out. *)
Record child := mkChild { c_vars : list Z; c_rows : list row }.

(** ** The plan *)

(** joinplan.cpp 274-281 and 314-319: the first position of a name. *)
Fixpoint index_of (x : Z) (l : list Z) : option nat :=
  match l with [] => None | y :: t => if y =? x then Some O else option_map S (index_of x t) end.
(** joinplan.cpp 273-305, prepare, the variables of a child from [j] on: the joins (posRow and
    posPattern), posVarsToCopy, and currentVars.  [last] is i == children.size() - 1.
    Simplification: the positions are bytes in the code; there are fewer than 256 variables. *)
Fixpoint plan_vars (last : bool) (proj : list Z) (cur : list Z) (j : nat) (new : list Z) : list (nat * nat) * list nat * list Z :=
  match new with
  | [] => ([], [], cur)
  | v :: new =>
    match index_of v cur with
    | Some k => let '(js, pc, cur) := plan_vars last proj cur (S j) new in ((k, j) :: js, pc, cur)
    | None =>
      let copy := if last && negb (Nat.eqb (length proj) 0) then existsb (Z.eqb v) proj else true in
      let '(js, pc, cur) := plan_vars last proj (cur ++ [v]) (S j) new in (js, if copy then j :: pc else pc, cur)
    end
  end.
(** joinplan.cpp 258-309, the loop over the children that follow the first. *)
Fixpoint plan_rest (proj : list Z) (cur : list Z) (cs : list child) : list (child * list (nat * nat) * list nat) * list Z :=
  match cs with
  | [] => ([], cur)
  | c :: cs =>
    let '(js, pc, cur) := plan_vars (match cs with [] => true | _ => false end) proj cur 0 (c_vars c) in
    let (l, cur) := plan_rest proj cur cs in ((c, js, pc) :: l, cur)
  end.
(** joinplan.cpp 312-326, posVarsToReturn. *)
Definition plan_return (proj cur : list Z) : list nat :=
  match proj with
  | [] => seq 0 (length cur)
  | _ => flat_map (fun x => match index_of x cur with Some k => [k] | None => [] end) proj
  end.

(** ** The map *)

(** hashjoinitr.cpp 58-146: currentMapValues and the map from a key to a position in it.
    dense_hash_map::insert does not replace; a key UINT64_MAX, which is the empty key, is not
    allowed. *)
Record hmap := mkHmap { h_vals : list Z; h_map : list (list Z * nat) }.
Definition key_eqb (a b : list Z) : bool := if list_eq_dec Z.eq_dec a b then true else false.
Fixpoint h_find (k : list Z) (m : list (list Z * nat)) : option nat :=
  match m with [] => None | (k', b) :: m => if key_eqb k' k then Some b else h_find k m end.
Definition h_insert (k : list Z) (b : nat) (m : list (list Z * nat)) : list (list Z * nat) :=
  match h_find k m with Some _ => m | None => (k, b) :: m end.
Definition set_nth (l : list Z) (i : nat) (x : Z) : list Z := firstn i l ++ match skipn i l with [] => [] | _ :: t => x :: t end.
(** hashjoinitr.cpp 107-119 and 131-145: a key ends. *)
Definition h_close (w : nat) (vals : list Z) (begin : nat) (prev : list Z) (m : list (list Z * nat)) : hmap :=
  let n := ((length vals - begin - 1) / w)%nat in
  mkHmap (if (1 <? n)%nat then set_nth vals begin (Z.of_nat n) else vals) (h_insert prev begin m).
(** hashjoinitr.cpp 96-129, the loop over the sorted rows after the first. *)
Fixpoint h_loop (w : nat) (fields : list nat) (rows : list row) (vals : list Z) (begin : nat) (prev : list Z) (m : list (list Z * nat)) : hmap :=
  match rows with
  | [] => h_close w vals begin prev m
  | r :: rows =>
    let k := map (col r) fields in
    if key_eqb k prev then h_loop w fields rows (vals ++ r) begin prev m
    else let h := h_close w vals begin prev m in h_loop w fields rows (h_vals h ++ 1 :: r) (length (h_vals h)) k (h_map h)
  end.
(** hashjoinitr.cpp 58-146, fillNextMap.  Simplification: the indices of rows are the rows; JoinSorter
    and DoubleJoinSorter (30-56) are the comparison of TupleTable. *)
Definition h_fill (srt : (row -> row -> bool) -> list row -> list row) (w : nat) (fields : list nat) (rows : list row) : hmap :=
  match srt (sorter fields) rows with
  | [] => mkHmap [] []
  | r :: rows => h_loop w fields rows (1 :: r) 0 (map (col r) fields) []
  end.
(** hashjoinitr.cpp 257-290 and 326-358: the rows of the map for a key. *)
Definition h_probe (w : nat) (h : hmap) (k : list Z) : list row :=
  match h_find k (h_map h) with
  | None => []
  | Some b => map (fun i => firstn w (skipn (S b + i * w) (h_vals h))) (seq 0 (Z.to_nat (nth b (h_vals h) 0)))
  end.

(** ** The join *)

(** hashjoinitr.cpp 348-356: a row of the output. *)
Definition hj_out (w : nat) (ret : list nat) (pc : list nat) (r1 r2 : row) : option row :=
  fold_right (fun k o => do l <- o;
    if (k <? w)%nat then Some (col r1 k :: l) else do c <- nth_error pc (k - w); Some (col r2 c :: l)) (Some []) ret.
Fixpoint hj_outs (l : list (option row)) : option (list row) :=
  match l with [] => Some [] | o :: l => do r <- o; do rs <- hj_outs l; Some (r :: rs) end.
(** hashjoinitr.cpp 165-364, execJoin, from the rows [rows], of [w] values, of the children before
    [rest] on.  The asserts on the number of joins, and an index outside of posVarsToCopy, are [None]. *)
Fixpoint hj_loop (srt : (row -> row -> bool) -> list row -> list row) (ret : list nat) (w : nat) (rows : list row)
                 (rest : list (child * list (nat * nat) * list nat)) : option (list row) :=
  match rest with
  | [] => None
  | (c, js, pc) :: rest =>
    match rows with
    | [] => Some []
    | _ =>
      if (length js =? 0)%nat || (2 <? length js)%nat then None
      else
        let h := h_fill srt w (map fst js) rows in
        let probe r2 := h_probe w h (map (col r2) (map snd js)) in
        match rest with
        | [] => hj_outs (flat_map (fun r2 => map (fun r1 => hj_out w ret pc r1 r2) (probe r2)) (c_rows c))
        | _ => hj_loop srt ret (w + length pc) (flat_map (fun r2 => map (fun r1 => r1 ++ map (col r2) pc) (probe r2)) (c_rows c)) rest
        end
    end
  end.
(** sparqloperators.cpp 29-53, Join::Join, and execJoin; hashjoinitr.cpp 229-238: all variables of
    the first child are copied. *)
Definition hj_exec (srt : (row -> row -> bool) -> list row -> list row) (proj : list Z) (cs : list child) : option (list row) :=
  match cs with
  | c0 :: ((_ :: _) as cs) =>
    let (rest, cur) := plan_rest proj (c_vars c0) cs in
    let n := length (c_vars c0) in
    hj_loop srt (plan_return proj cur) n (map (fun r => map (col r) (seq 0 n)) (c_rows c0)) rest
  | _ => None
  end.
(** hashjoinitr.cpp 319, the table of the output. *)
Definition hj_table (srt : (row -> row -> bool) -> list row -> list row) (proj : list Z) (cs : list child) : option tuples :=
  match cs with
  | c0 :: ((_ :: _) as cs') =>
    do l <- hj_exec srt proj cs;
    let n := length (plan_return proj (snd (plan_rest proj (c_vars c0) cs'))) in
    Some (mkTuples n [] l (match l with [] => true | _ => false end))
  | _ => None
  end.
(** hashjoinitr.cpp 366-389: hasNext, next, getElementAt until the end.  The number of rows is cast
    to an int. *)
Fixpoint hj_walk (fuel : nat) (t : tuples) (rowIdx : Z) : option (list row) :=
  match fuel with
  | O => None
  | S fuel =>
    let n := Z.of_nat (length (tt_rows t)) in
    let n := if n mod 2 ^ 32 <? 2 ^ 31 then n mod 2 ^ 32 else n mod 2 ^ 32 - 2 ^ 32 in
    if rowIdx <? n - 1 then
      do r <- ti_cols t (mkTiter (rowIdx + 1) false false false 0) 0 (tt_size t);
      do l <- hj_walk fuel t (rowIdx + 1); Some (r :: l)
    else Some []
  end.
