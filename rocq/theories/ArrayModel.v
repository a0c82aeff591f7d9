(** ArrayItr, and Querier::newItrOnReverse that builds it. *)
From Verif Require Export ItrModel.
Local Open Scope Z_scope.

(** vector::at (throws when out of range).  [int] positions are unbounded integers
    here: arrays of 2^31 elements or more are not modelled. *)
Definition at_ (arr : list (Z * Z)) (i : Z) : option (Z * Z) :=
  if (0 <=? i) then nth_error arr (Z.to_nat i) else None.

(** include/trident/iterators/arrayitr.h 36-48 and pairitr.h 33-35. *)
Record arr_st := mkArr {
  a_arr : list (Z * Z);
  a_pos : Z;
  a_v1 : Z; a_v2 : Z;
  a_markPos : Z;
  a_hnc : bool; a_n : bool;         (* hasNextChecked, n *)
  a_ign : bool;                     (* ignSecondColumn *)
  a_cnt : Z;                        (* countElems *)
  a_c1 : Z; a_c2 : Z;               (* constraint1, constraint2 *)
  a_key : Z
}.
Definition a_len (s : arr_st) : Z := Z.of_nat (length (a_arr s)).

(** src/trident/iterators/arrayitr.cpp 138-162, binarySearch. *)
Fixpoint bsearch_loop (fuel : nat) (arr : list (Z * Z)) (low high end_ k : Z) : option Z :=
  match fuel with
  | O => None
  | S f =>
    if low <=? high then
      let mid := Z.shiftr (low + high) 1 in
      do (midVal, _) <- at_ arr mid;
      if midVal <? k then bsearch_loop f arr (mid + 1) high end_ k
      else if k <? midVal then bsearch_loop f arr low (mid - 1) end_ k
      else if negb (low =? mid) then bsearch_loop f arr low mid end_ k
      else Some mid
    else if end_ <=? low then Some (- low - 1) else Some high
  end.
Definition binarySearch (arr : list (Z * Z)) (start end_ k : Z) : option Z :=
  bsearch_loop (S (S (length arr))) arr start (end_ - 1) end_ k.

(** arrayitr.cpp 180-183 / 127-130 / 39-45 / 79-83: forward scans.  [scan p] moves [pos]
    forward while it is inside the array and [p] holds of the element there. *)
Fixpoint scan (fuel : nat) (p : Z * Z -> bool) (arr : list (Z * Z)) (pos : Z) : option Z :=
  match fuel with
  | O => None
  | S f =>
    if pos <? Z.of_nat (length arr) then
      do e <- at_ arr pos;
      if p e then scan f p arr (pos + 1) else Some pos
    else Some pos
  end.
Definition scan_ (p : Z * Z -> bool) (arr : list (Z * Z)) (pos : Z) : option Z :=
  scan (S (length arr)) p arr pos.

(** arrayitr.cpp 164-198, init.  The key of the object is kept; markPos is not
    initialised by the code. *)
Definition arr_init (k : Z) (arr : list (Z * Z)) (c1 c2 : Z) : option arr_st :=
  let n := Z.of_nat (length arr) in
  if negb (c1 =? -1) then
    do pos <- binarySearch arr 0 n c1;
    if 0 <=? pos then
      if negb (c2 =? -1) then
        do pos' <- scan_ (fun e => (fst e =? c1) && (snd e <? c2)) arr pos;
        do b <- (if pos' <? n then do e <- at_ arr pos'; Some (snd e =? c2) else Some false);
        Some (mkArr arr pos' (-1) (-1) 0 true b false 0 c1 c2 k)
      else Some (mkArr arr pos (-1) (-1) 0 true true false 0 c1 c2 k)
    else Some (mkArr arr 0 (-1) (-1) 0 true false false 0 c1 c2 k)
  else Some (mkArr arr 0 (-1) (-1) 0 true true false 0 c1 c2 k).

Definition arr_set (s : arr_st) (pos : Z) (hnc n : bool) : arr_st :=
  mkArr (a_arr s) pos (a_v1 s) (a_v2 s) (a_markPos s) hnc n (a_ign s) (a_cnt s)
    (a_c1 s) (a_c2 s) (a_key s).

(** arrayitr.cpp 30-68, hasNext. *)
Definition arr_hasNext (s : arr_st) : option (bool * arr_st) :=
  if a_hnc s then Some (a_n s, s)
  else
    do pos <- (if a_ign s then scan_ (fun e => fst e =? a_v1 s) (a_arr s) (a_pos s)
               else Some (a_pos s));
    do n <- (if a_c1 s =? -1 then Some (pos <? a_len s)
             else if pos =? a_len s then Some false
             else do e <- at_ (a_arr s) pos;
                  Some (negb (negb (fst e =? a_c1 s) ||
                              (negb (a_c2 s =? -1) && negb (snd e =? a_c2 s)))));
    Some (n, arr_set s pos true n).

(** arrayitr.cpp 89-95, next. *)
Definition arr_next (s : arr_st) : option arr_st :=
  do e <- at_ (a_arr s) (a_pos s);
  Some (mkArr (a_arr s) (a_pos s + 1) (fst e) (snd e) (a_markPos s) false (a_n s) (a_ign s) 0
          (a_c1 s) (a_c2 s) (a_key s)).

(** arrayitr.cpp 70-87, getCount. *)
Definition arr_getCount (s : arr_st) : option (Z * arr_st) :=
  if negb (a_ign s) then None
  else if a_cnt s =? 0 then
    if a_pos s <? a_len s then
      do p <- at_ (a_arr s) (a_pos s - 1);
      do pos <- scan_ (fun e => fst e =? fst p) (a_arr s) (a_pos s);
      let c := 1 + (pos - a_pos s) in
      Some (c, mkArr (a_arr s) pos (a_v1 s) (a_v2 s) (a_markPos s) (a_hnc s) (a_n s) (a_ign s) c
                 (a_c1 s) (a_c2 s) (a_key s))
    else
      Some (1, mkArr (a_arr s) (a_pos s) (a_v1 s) (a_v2 s) (a_markPos s) (a_hnc s) (a_n s)
                 (a_ign s) 1 (a_c1 s) (a_c2 s) (a_key s))
  else Some (a_cnt s, s).

(** arrayitr.cpp 110-132, moveto (the assertions at 111-112 are preconditions). *)
Definition arr_moveto (s : arr_st) (c1 c2 : Z) : option arr_st :=
  if (c1 <=? a_v1 s) && (a_ign s || (c1 <? a_v1 s) || (c2 <=? a_v2 s)) then
    Some (arr_set s (a_pos s - 1) true true)
  else
    do p <- binarySearch (a_arr s) (a_pos s) (a_len s) c1;
    let p' := if p <? 0 then - p - 1 else p in
    do pos <- scan_ (fun e => (fst e <? c1) || ((fst e =? c1) && (snd e <? c2))) (a_arr s) p';
    Some (arr_set s pos false (a_n s)).

(** arrayitr.cpp 101-108 mark, reset; 134-136 ignoreSecondColumn. *)
Definition arr_mark (s : arr_st) : arr_st :=
  mkArr (a_arr s) (a_pos s) (a_v1 s) (a_v2 s) (a_pos s) (a_hnc s) (a_n s) (a_ign s) (a_cnt s)
    (a_c1 s) (a_c2 s) (a_key s).
Definition arr_reset (s : arr_st) : arr_st := arr_set s (a_markPos s) false (a_n s).
Definition arr_ignore (s : arr_st) : arr_st :=
  mkArr (a_arr s) (a_pos s) (a_v1 s) (a_v2 s) (a_markPos s) (a_hnc s) (a_n s) true (a_cnt s)
    (a_c1 s) (a_c2 s) (a_key s).
Definition arr_setKey (s : arr_st) (k : Z) : arr_st :=
  mkArr (a_arr s) (a_pos s) (a_v1 s) (a_v2 s) (a_markPos s) (a_hnc s) (a_n s) (a_ign s) (a_cnt s)
    (a_c1 s) (a_c2 s) k.

(** The ArrayItr object. *)
CoFixpoint arr_obj (s : arr_st) : pitr := {|
  hasNext := match arr_hasNext s with Some (b, s') => Some (b, arr_obj s') | None => None end;
  next := match arr_next s with Some s' => Some (arr_obj s') | None => None end;
  value1 := a_v1 s;
  value2 := a_v2 s;
  key := a_key s;
  getCount := match arr_getCount s with Some (c, s') => Some (c, arr_obj s') | None => None end;
  moveto := fun c1 c2 => match arr_moveto s c1 c2 with
                         | Some s' => Some (arr_obj s') | None => None end;
  ignoreSecondColumn := Some (arr_obj (arr_ignore s));
  mark := Some (arr_obj (arr_mark s));
  reset := fun _ => Some (arr_obj (arr_reset s));
  setKey := fun k => arr_obj (arr_setKey s k) |}.

Definition new_arr_itr (k : Z) (arr : list (Z * Z)) (c1 c2 : Z) : option pitr :=
  do s <- arr_init k arr c1 c2; Some (arr_obj s).

(** Sorting pairs: std::sort with the default order of std::pair; all sorted
    permutations of a list of pairs are equal, insertion sort is one of them. *)
Definition pair_leb (x y : Z * Z) : bool :=
  (fst x <? fst y) || ((fst x =? fst y) && (snd x <=? snd y)).
Fixpoint pinsert (x : Z * Z) (l : list (Z * Z)) : list (Z * Z) :=
  match l with
  | [] => [x]
  | y :: t => if pair_leb x y then x :: y :: t else y :: pinsert x t
  end.
Fixpoint psort (l : list (Z * Z)) : list (Z * Z) :=
  match l with [] => [] | x :: t => pinsert x (psort t) end.

(** src/trident/kb/querier.cpp 1245-1252: drain the old iterator into a vector. *)
Fixpoint reverse_fill (fuel : nat) (v1 : Z) (o : pitr) : option (list (Z * Z)) :=
  match fuel with
  | O => None
  | S f =>
    do (b, o1) <- hasNext o;
    if b then
      do o2 <- next o1;
      do l <- reverse_fill f v1 o2;
      Some (if (v1 <? 0) || (value2 o2 =? v1) then (value2 o2, value1 o2) :: l else l)
    else Some []
  end.

(** querier.cpp 1243-1262, newItrOnReverse, and the setKey at 942. *)
Definition newItrOnReverse (fuel : nat) (old : pitr) (k v1 v2 : Z) : option pitr :=
  do l <- reverse_fill fuel v1 old;
  match l with
  | [] => Some (empty_itr k)
  | _ => new_arr_itr k (psort l) v1 v2
  end.
