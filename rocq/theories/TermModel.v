(** Lists of terms over updates: CompositeTermItr, RmCompositeTermItr, DiffTermItr and
    Querier::getTermList. *)
From Verif Require Export ItrModel.
Local Open Scope Z_scope.

(** ** CompositeTermItr, include/trident/iterators/compositetermitr.h 32-160. *)
(** compositetermitr.h 34-37: activechildren, hnc, nc, and the key of PairItr.  children and
    currentCount are never read. *)
Record ct_st := mkCt { ct_act : list pitr; ct_hnc : bool; ct_nc : bool; ct_key : Z }.
(** compositetermitr.h 40-42, _sorter. *)
Definition ct_gt (a b : pitr) : bool := key b <? key a.
(** compositetermitr.h 103-112: the children that stand on [oldkey] move, or are erased.  The loop
    runs from the last child to the first; the children do not share state, so that the order does
    not matter. *)
Fixpoint ct_step (oldkey : Z) (l : list pitr) : option (list pitr) :=
  match l with
  | [] => Some []
  | c :: t =>
    do t' <- ct_step oldkey t;
    if key c =? oldkey then
      do (b, c1) <- hasNext c;
      if b then do c2 <- next c1; Some (c2 :: t') else Some t'
    else Some (c :: t')
  end.
(** compositetermitr.h 114-116 and compositetermitr.cpp 10-12: sorted if there is more than one. *)
Definition ct_sort (sortf : list pitr -> list pitr) (l : list pitr) : list pitr :=
  if (1 <? length l)%nat then sortf l else l.
(** compositetermitr.h 96-121, hasNext. *)
Definition ct_hasNext (sortf : list pitr -> list pitr) (s : ct_st) : option (bool * ct_st) :=
  if ct_hnc s then Some (ct_nc s, s)
  else
    match rev (ct_act s) with
    | [] => Some (false, mkCt [] true false (ct_key s))
    | back :: _ =>
      do l <- ct_step (key back) (ct_act s);
      match l with
      | [] => Some (false, mkCt [] true false (ct_key s))
      | _ => Some (true, mkCt (ct_sort sortf l) true true (ct_key s))
      end
    end.
(** compositetermitr.h 145-151, next.  back() of an empty vector is [None]. *)
Definition ct_next (sortf : list pitr -> list pitr) (s : ct_st) : option ct_st :=
  do (b, s1) <- (if ct_hnc s then Some (true, s) else ct_hasNext sortf s);
  if b then
    match rev (ct_act s1) with
    | [] => None
    | back :: _ => Some (mkCt (ct_act s1) false (ct_nc s1) (key back))
    end
  else Some s1.
(** compositetermitr.h 81-86: the sum of the counts of the children on the key. *)
Fixpoint ct_sum (k : Z) (l : list pitr) : option (Z * list pitr) :=
  match l with
  | [] => Some (0, [])
  | c :: t =>
    do (n, t') <- ct_sum k t;
    if key c =? k then do (m, c1) <- getCount c; Some (n + m, c1 :: t') else Some (n, c :: t')
  end.
(** compositetermitr.h 77-88, getCount. *)
Definition ct_count (s : ct_st) : option (Z * ct_st) :=
  if ct_hnc s then None
  else do (n, l) <- ct_sum (ct_key s) (ct_act s); Some (n, mkCt l (ct_hnc s) (ct_nc s) (ct_key s)).
(** The CompositeTermItr object; ignoreSecondColumn, mark, reset and moveto throw (58-75). *)
CoFixpoint ct_obj (sortf : list pitr -> list pitr) (s : ct_st) : pitr := {|
  hasNext := match ct_hasNext sortf s with Some (b, s') => Some (b, ct_obj sortf s') | None => None end;
  next := match ct_next sortf s with Some s' => Some (ct_obj sortf s') | None => None end;
  value1 := 0; value2 := 0; key := ct_key s;
  getCount := match ct_count s with Some (n, s') => Some (n, ct_obj sortf s') | None => None end;
  moveto := fun _ _ => None; ignoreSecondColumn := None; mark := None; reset := fun _ => None;
  setKey := fun k => ct_obj sortf (mkCt (ct_act s) (ct_hnc s) (ct_nc s) k) |}.
(** compositetermitr.h 153-159, init; the key keeps a value [k] that is not known. *)
Definition ct_init (k : Z) : ct_st := mkCt [] true false k.
(** compositetermitr.cpp 3-13, add. *)
Definition ct_add (sortf : list pitr -> list pitr) (s : ct_st) (itr : pitr) : option ct_st :=
  do (b, i1) <- hasNext itr;
  if b then
    do i2 <- next i1;
    Some (mkCt (ct_sort sortf (ct_act s ++ [i2])) (ct_hnc s) true (ct_key s))
  else Some (mkCt (ct_sort sortf (ct_act s)) (ct_hnc s) (ct_nc s) (ct_key s)).

(** ** RmCompositeTermItr, include/trident/iterators/rmcompositetermitr.h 30-168. *)
(** rmcompositetermitr.h 32-36: mainitr, rmitr, currentCount, nextCount, hnc, hn and the key. *)
Record rt_st := mkRt { rt_main : pitr; rt_rm : pitr; rt_cur : Z; rt_nxt : Z; rt_hnc : bool; rt_hn : bool; rt_key : Z }.
(** rmcompositetermitr.h 109-111: rmitr moves up to the key [k]. *)
Fixpoint rt_advance (fuel : nat) (k : Z) (r : pitr) : option pitr :=
  match fuel with
  | O => None
  | S fuel =>
    if key r <? k then
      do (b, r1) <- hasNext r;
      if b then do r2 <- next r1; rt_advance fuel k r2 else Some r1
    else Some r
  end.
(** rmcompositetermitr.h 108-135: the loop; mainitr stands on a key.  Result: mainitr, rmitr,
    nextCount and hn.  A failed assert is [None]; the counts are compared and subtracted as size_t
    and the difference is stored as int64_t, which is the difference. *)
Fixpoint rt_loop (fuel : nat) (m r : pitr) : option (pitr * pitr * Z * bool) :=
  match fuel with
  | O => None
  | S fuel' =>
    do r1 <- rt_advance fuel (key m) r;
    if negb (key r1 =? key m) then Some (m, r1, -1, true)
    else
      do (rc, r2) <- getCount r1;
      if rc =? 0 then None else
      do (mc, m1) <- getCount m;
      if mc =? 0 then None else
      if rc =? mc then
        do (b, m2) <- hasNext m1;
        if b then do m3 <- next m2; rt_loop fuel' m3 r2 else Some (m2, r2, -1, false)
      else Some (m1, r2, mc - rc, true)
  end.
(** rmcompositetermitr.h 100-138, hasNext. *)
Definition rt_hasNext (fuel : nat) (s : rt_st) : option (bool * rt_st) :=
  if rt_hnc s then Some (rt_hn s, s)
  else
    do (b, m1) <- hasNext (rt_main s);
    if b then
      do m2 <- next m1;
      do (m, r, n, h) <- rt_loop fuel m2 (rt_rm s);
      Some (h, mkRt m r (rt_cur s) n true h (rt_key s))
    else Some (false, mkRt m1 (rt_rm s) (rt_cur s) (-1) true false (rt_key s)).
(** rmcompositetermitr.h 148-155, next. *)
Definition rt_next (fuel : nat) (s : rt_st) : option rt_st :=
  do (b, s1) <- (if rt_hnc s then Some (true, s) else rt_hasNext fuel s);
  if b then Some (mkRt (rt_main s1) (rt_rm s1) (-1) (rt_nxt s1) false (rt_hn s1) (key (rt_main s1))) else Some s1.
(** rmcompositetermitr.h 81-98, getCount. *)
Definition rt_count (s : rt_st) : option (Z * rt_st) :=
  if rt_hnc s then None
  else if rt_cur s =? -1 then
    if negb (rt_nxt s =? -1) then Some (rt_nxt s, mkRt (rt_main s) (rt_rm s) (rt_nxt s) (rt_nxt s) (rt_hnc s) (rt_hn s) (rt_key s))
    else
      do (mc, m1) <- getCount (rt_main s);
      do (rc, r1) <- (if negb (key (rt_rm s) =? key (rt_main s)) then Some (0, rt_rm s) else getCount (rt_rm s));
      Some (mc - rc, mkRt m1 r1 (mc - rc) (rt_nxt s) (rt_hnc s) (rt_hn s) (rt_key s))
  else Some (rt_cur s, s).
(** The RmCompositeTermItr object; ignoreSecondColumn, mark, reset and moveto throw (60-79), and so
    do getValue1 and getValue2 (52-58), which nobody calls. *)
CoFixpoint rt_obj (fuel : nat) (s : rt_st) : pitr := {|
  hasNext := match rt_hasNext fuel s with Some (b, s') => Some (b, rt_obj fuel s') | None => None end;
  next := match rt_next fuel s with Some s' => Some (rt_obj fuel s') | None => None end;
  value1 := 0; value2 := 0; key := rt_key s;
  getCount := match rt_count s with Some (n, s') => Some (n, rt_obj fuel s') | None => None end;
  moveto := fun _ _ => None; ignoreSecondColumn := None; mark := None; reset := fun _ => None;
  setKey := fun k => rt_obj fuel (mkRt (rt_main s) (rt_rm s) (rt_cur s) (rt_nxt s) (rt_hnc s) (rt_hn s) k) |}.
(** rmcompositetermitr.h 157-167, init. *)
Definition rt_init (k : Z) (main rm : pitr) : option rt_st :=
  do (b, r1) <- hasNext rm;
  if b then do r2 <- next r1; Some (mkRt main r2 (-1) (-1) false false k)
  else Some (mkRt main r1 (-1) (-1) false false k).

(** ** DiffTermItr, src/trident/iterators/difftermitr.cpp. *)
(** difftermitr.cpp 26-61, 78-80 and 82-90, mode 0: the keys of a tree with their numbers of
    elements.  [l] is what TreeItr delivers; [k] and [c] are the key and the count it stands on. *)
CoFixpoint dt_tree (l : list (Z * Z)) (k c : Z) : pitr := {|
  hasNext := Some (match l with [] => false | _ => true end, dt_tree l k c);
  next := match l with [] => None | (k', c') :: t => Some (dt_tree t k' c') end;
  value1 := 0; value2 := 0; key := k;
  getCount := Some (c, dt_tree l k c);
  moveto := fun _ _ => None; ignoreSecondColumn := None; mark := None; reset := fun _ => None;
  setKey := fun k' => dt_tree l k' c |}.
(** difftermitr.cpp 26-61, 78-80 and 92-115, modes 1 and 2: the keys of an array (or one key).  The
    coordinates are not set: [c] is whatever they hold. *)
CoFixpoint dt_array (l : list Z) (k c : Z) : pitr := {|
  hasNext := Some (match l with [] => false | _ => true end, dt_array l k c);
  next := match l with [] => None | k' :: t => Some (dt_array t k' c) end;
  value1 := 0; value2 := 0; key := k;
  getCount := Some (c, dt_array l k c);
  moveto := fun _ _ => None; ignoreSecondColumn := None; mark := None; reset := fun _ => None;
  setKey := fun k' => dt_array l k' c |}.

(** ** Querier::getTermList, src/trident/kb/querier.cpp 775-815. *)
(** An update: its type (true = DELETE_df), getNUniqueKeys(perm), and getTermListItr for [perm] and
    for IDX_SPO. *)
Record tupd := mkTupd { tu_del : bool; tu_new : Z; tu_itr : pitr; tu_spo : pitr }.
(** querier.cpp 787-812.  [final] is finalItr: a CompositeTermItr ([inl]) or another iterator.  The
    branch without the permutation (778-785) is left out.  The keys of new iterators are [k]. *)
Fixpoint gt_loop (sortf : list pitr -> list pitr) (fuel : nat) (k : Z) (us : list tupd) (final : ct_st + pitr) : option pitr :=
  let obj := match final with inl s => ct_obj sortf s | inr o => o end in
  match us with
  | [] => Some obj
  | u :: us =>
    if 0 <? tu_new u then
      if tu_del u then
        do s <- rt_init k obj (tu_spo u); gt_loop sortf fuel k us (inr (rt_obj fuel s))
      else
        match final with
        | inl s => do s' <- ct_add sortf s (tu_itr u); gt_loop sortf fuel k us (inl s')
        | inr o => do s <- ct_add sortf (ct_init k) o; do s' <- ct_add sortf s (tu_itr u); gt_loop sortf fuel k us (inl s')
        end
    else gt_loop sortf fuel k us final
  end.
Definition getTermList (sortf : list pitr -> list pitr) (fuel : nat) (k : Z) (base : pitr) (us : list tupd) : option pitr :=
  gt_loop sortf fuel k us (inr base).

(** ** The number of new keys, src/trident/kb/updatestats.cpp. *)
(** updatestats.cpp 75-79 and 177-180: existingkeys moves up to the key.  [cur] is currentkey. *)
Fixpoint us_advance (fuel : nat) (k : Z) (ex : pitr) (cur : Z) : option (pitr * Z) :=
  match fuel with
  | O => None
  | S fuel =>
    if cur <? k then
      do (b, e1) <- hasNext ex;
      if b then do e2 <- next e1; us_advance fuel k e2 (key e2) else Some (e1, cur)
    else Some (ex, cur)
  end.
(** updatestats.cpp 70-86, UpdateStats_add::setKey, for the keys of an addition in order: nkeys. *)
Fixpoint us_add (fuel : nat) (keys : list Z) (ex : pitr) (cur : Z) : option Z :=
  match keys with
  | [] => Some 0
  | k :: keys =>
    if k <? cur then do n <- us_add fuel keys ex cur; Some (n + 1)
    else
      do (e1, c1) <- us_advance fuel k ex cur;
      do n <- us_add fuel keys e1 c1; Some (if negb (c1 =? k) then n + 1 else n)
  end.
(** updatestats.cpp 175-187, UpdateStats_rm::setKey, for the keys of a deletion with the sizes of
    their tables: nkeys.  The failed assert is [None]. *)
Fixpoint us_rm (fuel : nat) (keys : list (Z * Z)) (ex : pitr) (cur : Z) : option Z :=
  match keys with
  | [] => Some 0
  | (k, size) :: keys =>
    do (e1, c1) <- us_advance fuel k ex cur;
    if negb (c1 =? k) then None else
    do (c, e2) <- getCount e1;
    do n <- us_rm fuel keys e2 c1; Some (if c =? size then n + 1 else n)
  end.
(** updatestats.cpp 26-41, the constructor: currentkey is ~0u (32 bits) if there is no key. *)
Definition us_start (ex : pitr) : option (pitr * Z) :=
  do (b, e1) <- hasNext ex;
  if b then do e2 <- next e1; Some (e2, key e2) else Some (e1, 2 ^ 32 - 1).
