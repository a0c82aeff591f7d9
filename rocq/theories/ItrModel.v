(** Iterators over (key, value1, value2) as objects.

    include/trident/iterators/pairitr.h 31-115 declares an abstract class with virtual
    methods.  An object of that class is modelled by its behaviour: a record with one
    field per method holding the result of calling that method and, when the method changes
    the object, the object after the call.  [None] models an exception or a call that
    does not return.  Methods not used by the modelled clients are left out. *)
From Coq Require Export List ZArith Lia Bool.
Export ListNotations.
Local Open Scope Z_scope.

Set Primitive Projections.
CoInductive pitr : Type := mkItr {
  hasNext : option (bool * pitr);
  next : option pitr;
  value1 : Z;
  value2 : Z;
  key : Z;
  getCount : option (Z * pitr);
  moveto : Z -> Z -> option pitr;
  ignoreSecondColumn : option pitr;
  mark : option pitr;
  reset : Z -> option pitr;
  setKey : Z -> pitr
}.
Unset Primitive Projections.

Definition elem := (Z * Z * Z)%type.
Definition cur (o : pitr) : elem := (key o, value1 o, value2 o).

Notation "'do' x <- e ; f" := (match e with Some x => f | None => None end)
  (at level 200, x pattern, e at level 100, f at level 200, right associativity).

(** ** EmptyItr, include/trident/iterators/emptyitr.h 28-79. *)
CoFixpoint empty_itr (k : Z) : pitr := {|
  hasNext := Some (false, empty_itr k);
  next := Some (empty_itr k);
  value1 := 0;
  value2 := 0;
  key := k;
  getCount := Some (0, empty_itr k);
  moveto := fun _ _ => Some (empty_itr k);
  ignoreSecondColumn := Some (empty_itr k);
  mark := Some (empty_itr k);
  reset := fun _ => Some (empty_itr k);
  setKey := fun k' => empty_itr k' |}.

(** ** RmItr, include/trident/iterators/rmitr.h 29-109, src/trident/iterators/rmitr.cpp. *)
Record rm_st := mkRm {
  rm_itr : pitr;            (* itr *)
  rm_rmitr : pitr;          (* rmitr *)
  rm_valid : bool;          (* rmitrvalid *)
  rm_noseccol : bool;
  rm_v1 : Z; rm_v2 : Z; rm_key : Z;
  rm_curCount : Z; rm_nextCount : Z;
  rm_hnc : bool; rm_hn : bool;
  rm_saved : bool * Z * Z * Z * Z (* savedrmitrvalid, savedv1, savedv2, savedcurCount, savednextCount *)
}.

(** rmitr.cpp 134-172, RmItr::cmp.  The 64-bit differences are computed on unbounded
    integers (no overflow for non-negative operands). *)
Definition rm_cmp (noseccol : bool) (i1 i2 : pitr) : Z :=
  if key i1 <? key i2 then -1
  else if key i1 =? key i2 then
    let diff := value1 i1 - value1 i2 in
    if diff <? 0 then -1
    else if 0 <? diff then 1
    else if noseccol then 0
    else
      let diff2 := value2 i1 - value2 i2 in
      if diff2 <? 0 then -1 else if 0 <? diff2 then 1 else 0
  else 1.

(** rmitr.cpp 66-75: the inner loop that moves the deletion iterator forward.  Returns
    the last comparison and the deletion iterator.  [fuel] bounds the number of turns;
    [None] when it runs out. *)
Fixpoint rm_advance (fuel : nat) (noseccol : bool) (rmitr itr : pitr) (cmpres : Z)
  : option (Z * pitr) :=
  if cmpres <? 0 then
    match fuel with
    | O => None
    | S fuel' =>
      do (b, r1) <- hasNext rmitr;
      if b then
        do r2 <- next r1;
        rm_advance fuel' noseccol r2 itr (rm_cmp noseccol r2 itr)
      else Some (cmpres, r1)
    end
  else Some (cmpres, rmitr).

(** rmitr.cpp 60-101: the outer loop.  Result: (valid, itr, rmitr, rmitrvalid,
    nextCount). *)
Fixpoint rm_loop (fuel : nat) (noseccol : bool) (itr rmitr : pitr) (rmvalid : bool)
  (nextCount : Z) : option (bool * pitr * pitr * bool * Z) :=
  match fuel with
  | O => None
  | S fuel' =>
    do (b, i1) <- hasNext itr;
    if b then
      do i2 <- next i1;
      if rmvalid then
        do (c, r) <- rm_advance fuel noseccol rmitr i2 (rm_cmp noseccol rmitr i2);
        if c <? 0 then
          do (n, i3) <- getCount i2; Some (true, i3, r, false, n)
        else if 0 <? c then
          do (n, i3) <- getCount i2; Some (true, i3, r, rmvalid, n)
        else if noseccol then
          do (n1, i3) <- getCount i2;
          do (n2, r') <- getCount r;
          if 0 <? n1 - n2 then Some (true, i3, r', rmvalid, n1 - n2)
          else rm_loop fuel' noseccol i3 r' rmvalid (n1 - n2)
        else rm_loop fuel' noseccol i2 r rmvalid nextCount
      else
        do (n, i3) <- getCount i2; Some (true, i3, rmitr, rmvalid, n)
    else Some (false, i1, rmitr, rmvalid, nextCount)
  end.

(** rmitr.cpp 56-105, RmItr::hasNext. *)
Definition rm_hasNext (fuel : nat) (s : rm_st) : option (bool * rm_st) :=
  if rm_hnc s then Some (rm_hn s, s)
  else
    do (valid, i, r, v, n) <-
      rm_loop fuel (rm_noseccol s) (rm_itr s) (rm_rmitr s) (rm_valid s) (rm_nextCount s);
    Some (valid, mkRm i r v (rm_noseccol s) (rm_v1 s) (rm_v2 s) (rm_key s)
                   (rm_curCount s) n true valid (rm_saved s)).

(** rmitr.cpp 107-113, RmItr::next. *)
Definition rm_next (s : rm_st) : rm_st :=
  mkRm (rm_itr s) (rm_rmitr s) (rm_valid s) (rm_noseccol s)
    (value1 (rm_itr s)) (value2 (rm_itr s)) (key (rm_itr s))
    (rm_nextCount s) (rm_nextCount s) false (rm_hn s) (rm_saved s).

(** rmitr.cpp 45-54, RmItr::moveto (the assertion at line 46 is a precondition). *)
Definition rm_moveto (s : rm_st) (c1 c2 : Z) : option rm_st :=
  do i <- moveto (rm_itr s) c1 c2;
  do r <- moveto (rm_rmitr s) c1 c2;
  do (b, r1) <- hasNext r;
  if b then
    do r2 <- next r1;
    Some (mkRm i r2 (rm_valid s) (rm_noseccol s) (rm_v1 s) (rm_v2 s) (rm_key s)
            (rm_curCount s) (rm_nextCount s) (rm_hnc s) (rm_hn s) (rm_saved s))
  else
    Some (mkRm i r1 false (rm_noseccol s) (rm_v1 s) (rm_v2 s) (rm_key s)
            (rm_curCount s) (rm_nextCount s) (rm_hnc s) (rm_hn s) (rm_saved s)).

(** rmitr.cpp 174-187, RmItr::ignoreSecondColumn. *)
Definition rm_ignore (s : rm_st) : option rm_st :=
  do i <- ignoreSecondColumn (rm_itr s);
  do r <- ignoreSecondColumn (rm_rmitr s);
  do (n, i1) <- getCount i;
  do (n2, r1) <- (if value1 r =? value1 i1 then
                    do (m, r1) <- getCount r; Some (n - m, r1)
                  else Some (n, r));
  if rm_v1 s =? -1 then
    Some (mkRm i1 r1 (rm_valid s) true (rm_v1 s) (rm_v2 s) (rm_key s)
            (rm_curCount s) n2 (rm_hnc s) (rm_hn s) (rm_saved s))
  else
    Some (mkRm i1 r1 (rm_valid s) true (rm_v1 s) (rm_v2 s) (rm_key s)
            n2 (rm_nextCount s) (rm_hnc s) (rm_hn s) (rm_saved s)).

(** rmitr.h 62-84, mark and reset. *)
Definition rm_mark (s : rm_st) : option rm_st :=
  do i <- mark (rm_itr s);
  do r <- mark (rm_rmitr s);
  Some (mkRm i r (rm_valid s) (rm_noseccol s) (rm_v1 s) (rm_v2 s) (rm_key s)
          (rm_curCount s) (rm_nextCount s) (rm_hnc s) (rm_hn s)
          (rm_valid s, rm_v1 s, rm_v2 s, rm_curCount s, rm_nextCount s)).

Definition rm_reset (s : rm_st) (i : Z) : option rm_st :=
  do a <- reset (rm_itr s) i;
  do r <- reset (rm_rmitr s) i;
  let '(sv, sv1, sv2, scc, snc) := rm_saved s in
  Some (mkRm a r sv (rm_noseccol s)
          (if i =? 0 then sv1 else rm_v1 s) (if i =? 0 then rm_v2 s else sv2)
          (rm_key s) scc snc false (rm_hn s) (rm_saved s)).

(** The RmItr object. *)
CoFixpoint rm_itr_obj (fuel : nat) (s : rm_st) : pitr := {|
  hasNext := match rm_hasNext fuel s with
             | Some (b, s') => Some (b, rm_itr_obj fuel s') | None => None end;
  next := Some (rm_itr_obj fuel (rm_next s));
  value1 := rm_v1 s;
  value2 := rm_v2 s;
  key := rm_key s;
  getCount := Some (rm_curCount s, rm_itr_obj fuel s);
  moveto := fun c1 c2 => match rm_moveto s c1 c2 with
                         | Some s' => Some (rm_itr_obj fuel s') | None => None end;
  ignoreSecondColumn := match rm_ignore s with
                         | Some s' => Some (rm_itr_obj fuel s') | None => None end;
  mark := match rm_mark s with Some s' => Some (rm_itr_obj fuel s') | None => None end;
  reset := fun i => match rm_reset s i with
                    | Some s' => Some (rm_itr_obj fuel s') | None => None end;
  setKey := fun k => rm_itr_obj fuel
     (mkRm (rm_itr s) (rm_rmitr s) (rm_valid s) (rm_noseccol s) (rm_v1 s) (rm_v2 s) k
        (rm_curCount s) (rm_nextCount s) (rm_hnc s) (rm_hn s) (rm_saved s)) |}.

(** rmitr.cpp 28-43, RmItr::init. *)
Definition rm_init (itr rmitr : pitr) : option rm_st :=
  do (b, r1) <- hasNext rmitr;
  if b then
    do r2 <- next r1;
    Some (mkRm itr r2 true false (-1) (-1) (-1) 0 0 false false (false, 0, 0, 0, 0))
  else
    Some (mkRm itr r1 false false (-1) (-1) (-1) 0 0 false false (false, 0, 0, 0, 0)).

Definition new_rm_itr (fuel : nat) (itr rmitr : pitr) : option pitr :=
  do s <- rm_init itr rmitr; Some (rm_itr_obj fuel s).

(** ** CompositeItr, include/trident/iterators/compositeitr.h 34-121,
    src/trident/iterators/compositeitr.cpp. *)
Record comp_st := mkComp {
  c_children : list pitr;
  c_active : nat;           (* lastIdx + 1 *)
  c_v1 : Z; c_v2 : Z; c_key : Z;
  c_ign : bool;             (* ignseccol *)
  c_hn : bool; c_hnc : bool;
  c_sorted : bool;          (* isSorted *)
  c_decr : bool;            (* decreasedKey *)
  c_count : Z;              (* currentCount *)
  c_saved : Z * Z * Z * nat * bool * bool
     (* savedv1, savedv2, savedcurrentCount, savedlastIdx + 1, savedhn, savedhnc *)
}.

Definition upd {A} (i : nat) (x : A) (l : list A) : list A :=
  firstn i l ++ match skipn i l with [] => [] | _ :: t => x :: t end.

Definition swap {A} (i j : nat) (l : list A) : list A :=
  match nth_error l i, nth_error l j with
  | Some a, Some b => upd j a (upd i b l)
  | _, _ => l
  end.

(** compositeitr.cpp 71-75, _composite_itr_sorter: descending order. *)
Definition comp_gt (i1 i2 : pitr) : bool :=
  (value1 i2 <? value1 i1) ||
  ((value1 i1 =? value1 i2) && (value2 i2 <? value2 i1)).

(** compositeitr.cpp 41-60: the loop of hasNext when the second column is ignored.
    [n] is i + 1.  Result: children, active, decreasedKey, isKeyOk. *)
Fixpoint comp_hn_ign (n : nat) (v1 : Z) (ch : list pitr) (active : nat) (decr ok : bool)
  : option (list pitr * nat * bool * bool) :=
  match n with
  | O => Some (ch, active, decr, ok)
  | S i =>
    do c <- nth_error ch i;
    if value1 c =? v1 then
      do (b, c1) <- hasNext c;
      let ch1 := upd i c1 ch in
      if b then comp_hn_ign i v1 ch1 active decr true
      else comp_hn_ign i v1 (swap (active - 1) i ch1) (active - 1) true ok
    else Some (ch, active, decr, ok)
  end.

(** compositeitr.cpp 30-69, CompositeItr::hasNext (assertions omitted). *)
Definition comp_hasNext (s : comp_st) : option (bool * comp_st) :=
  if c_hnc s then Some (c_hn s, s)
  else
    do (ch, act, decr) <-
      match c_active s with
      | O => Some (c_children s, O, false)
      | S last =>
        if negb (c_ign s) then
          do c <- nth_error (c_children s) last;
          do (b, c1) <- hasNext c;
          if b then Some (upd last c1 (c_children s), c_active s, false)
          else Some (upd last c1 (c_children s), last, true)
        else
          do (ch, act, decr, ok) <-
            comp_hn_ign (c_active s) (c_v1 s) (c_children s) (c_active s) false false;
          Some (ch, act, decr && negb ok)
      end;
    let hn := (0 <? act)%nat in
    Some (hn, mkComp ch act (c_v1 s) (c_v2 s) (c_key s) (c_ign s) hn true (c_sorted s)
                decr (c_count s) (c_saved s)).

(** compositeitr.cpp 86-91: advance the other children. [n] is i + 1. *)
Fixpoint comp_next_others (n : nat) (sorted : bool) (v1 : Z) (ch : list pitr) (must : bool)
  : option (list pitr * bool) :=
  match n with
  | O => Some (ch, must)
  | S i =>
    do c <- nth_error ch i;
    if negb sorted || (v1 =? value1 c) then
      do c1 <- next c;
      comp_next_others i sorted v1 (upd i c1 ch) true
    else comp_next_others i sorted v1 ch must
  end.

(** compositeitr.cpp 97-105: move the last child into place. [i] is the index. *)
Fixpoint comp_bubble (i : nat) (ch : list pitr) : list pitr :=
  match i with
  | O => ch
  | S j =>
    match nth_error ch i, nth_error ch j with
    | Some a, Some b => if comp_gt a b then comp_bubble j (swap i j ch) else ch
    | _, _ => ch
    end
  end.

(** compositeitr.cpp 140-156, rearrangeChildren, without the assignment to isSorted.
    [sortf] stands for std::sort with _composite_itr_sorter. *)
Definition comp_rearrange (sortf : list pitr -> list pitr) (ign : bool) (active : nat)
  (ch : list pitr) : list pitr :=
  match active with
  | 2%nat =>
    match ch with
    | a :: b :: rest =>
      if (value1 a <? value1 b) ||
         (negb ign && (value1 b =? value1 a) && (value2 a <? value2 b))
      then b :: a :: rest else ch
    | _ => ch
    end
  | _ => if (2 <? active)%nat then sortf (firstn active ch) ++ skipn active ch else ch
  end.

(** compositeitr.cpp 113-118: sum of the counts. [n] is i + 1. *)
Fixpoint comp_counts (n : nat) (v1 : Z) (ch : list pitr) (acc : Z) : option (list pitr * Z) :=
  match n with
  | O => Some (ch, acc)
  | S i =>
    do c <- nth_error ch i;
    if value1 c =? v1 then
      do (m, c1) <- getCount c;
      comp_counts i v1 (upd i c1 ch) (acc + m)
    else comp_counts i v1 ch acc
  end.

(** compositeitr.cpp 77-121, CompositeItr::next. *)
Definition comp_next (sortf : list pitr -> list pitr) (s0 : comp_st) : option comp_st :=
  do s <- (if c_hnc s0 then Some s0 else do (_, s1) <- comp_hasNext s0; Some s1);
  match c_active s with
  | O => None
  | S last =>
    do (ch, srt) <-
      (if c_decr s then Some (c_children s, c_sorted s)
       else
         do c <- nth_error (c_children s) last;
         do c1 <- next c;
         let ch1 := upd last c1 (c_children s) in
         do (ch2, must) <-
           (if negb (c_sorted s) || c_ign s
            then comp_next_others last (c_sorted s) (c_v1 s) ch1 false
            else Some (ch1, false));
         if must then Some (comp_rearrange sortf (c_ign s) (c_active s) ch2, true)
         else Some (comp_bubble last ch2, c_sorted s));
    do c <- nth_error ch last;
    let v1 := value1 c in
    if negb (c_ign s) then
      Some (mkComp ch (c_active s) v1 (value2 c) (c_key s) (c_ign s) (c_hn s) false srt
              (c_decr s) (c_count s) (c_saved s))
    else
      do (ch', n) <- comp_counts (c_active s) v1 ch 0;
      Some (mkComp ch' (c_active s) v1 (c_v2 s) (c_key s) (c_ign s) (c_hn s) false srt
              (c_decr s) n (c_saved s))
  end.

(** compositeitr.cpp 123-134, ignoreSecondColumn. [n] is i + 1. *)
Fixpoint comp_ign_loop (n : nat) (v1 : Z) (ch : list pitr) (acc : Z) : option (list pitr * Z) :=
  match n with
  | O => Some (ch, acc)
  | S i =>
    do c <- nth_error ch i;
    do c1 <- ignoreSecondColumn c;
    if negb (v1 =? -1) && (value1 c1 =? v1) then
      do (m, c2) <- getCount c1;
      comp_ign_loop i v1 (upd i c2 ch) (acc + m)
    else comp_ign_loop i v1 (upd i c1 ch) acc
  end.

Definition comp_ignore (s : comp_st) : option comp_st :=
  do (ch, n) <- comp_ign_loop (length (c_children s)) (c_v1 s) (c_children s) 0;
  Some (mkComp ch (c_active s) (c_v1 s) (c_v2 s) (c_key s) true (c_hn s) (c_hnc s)
          (c_sorted s) (c_decr s) n (c_saved s)).

(** compositeitr.cpp 205-209: reconsider removed children; [fuel] is the number of
    children after lastIdx. *)
Fixpoint comp_readd (fuel : nat) (ign : bool) (c1 c2 : Z) (ch : list pitr) (active : nat) : nat :=
  match fuel with
  | O => active
  | S f =>
    match nth_error ch active with
    | Some c => if (value1 c =? c1) && (ign || (value2 c =? c2))
                then comp_readd f ign c1 c2 ch (S active) else active
    | None => active
    end
  end.

(** compositeitr.cpp 212-225. [n] is i + 1. *)
Fixpoint comp_moveto_loop (n : nat) (c1 c2 : Z) (ch : list pitr) (active : nat)
  : option (list pitr * nat) :=
  match n with
  | O => Some (ch, active)
  | S i =>
    do c <- nth_error ch i;
    do c' <- moveto c c1 c2;
    do (b, c'') <- hasNext c';
    let ch1 := upd i c'' ch in
    if b then comp_moveto_loop i c1 c2 ch1 active
    else comp_moveto_loop i c1 c2 (swap (active - 1) i ch1) (active - 1)
  end.

(** compositeitr.cpp 202-228, CompositeItr::moveto. *)
Definition comp_moveto (s : comp_st) (c1 c2 : Z) : option comp_st :=
  let act :=
    if (c1 =? c_v1 s) && (c_ign s || (c2 =? c_v2 s))
    then comp_readd (length (c_children s) - c_active s) (c_ign s) c1 c2 (c_children s) (c_active s)
    else c_active s in
  do (ch, act') <- comp_moveto_loop act c1 c2 (c_children s) act;
  let '(srt, decr) := match act with O => (c_sorted s, c_decr s) | _ => (false, false) end in
  Some (mkComp ch act' (c_v1 s) (c_v2 s) (c_key s) (c_ign s) (0 <? act')%nat true srt decr
          (c_count s) (c_saved s)).

Fixpoint mapo {A B} (f : A -> option B) (l : list A) : option (list B) :=
  match l with
  | [] => Some []
  | x :: t => do y <- f x; do ys <- mapo f t; Some (y :: ys)
  end.

(** compositeitr.h 88-113, mark and reset.  kbitr is one of the children or an exhausted
    iterator that is not consulted again, so its own mark/reset is not modelled. *)
Definition comp_mark (s : comp_st) : option comp_st :=
  do ch <- mapo mark (c_children s);
  Some (mkComp ch (c_active s) (c_v1 s) (c_v2 s) (c_key s) (c_ign s) (c_hn s) (c_hnc s)
          (c_sorted s) (c_decr s) (c_count s)
          (c_v1 s, c_v2 s, c_count s, c_active s, c_hn s, c_hnc s)).

Definition comp_reset (s : comp_st) (r : Z) : option comp_st :=
  do ch <- mapo (fun c => reset c r) (c_children s);
  let '(v1, v2, cnt, act, hn, hnc) := c_saved s in
  Some (mkComp ch act v1 v2 (c_key s) (c_ign s) hn hnc (c_sorted s) (c_decr s) cnt (c_saved s)).

(** The CompositeItr object. *)
CoFixpoint comp_obj (sortf : list pitr -> list pitr) (s : comp_st) : pitr := {|
  hasNext := match comp_hasNext s with
             | Some (b, s') => Some (b, comp_obj sortf s') | None => None end;
  next := match comp_next sortf s with
          | Some s' => Some (comp_obj sortf s') | None => None end;
  value1 := c_v1 s;
  value2 := c_v2 s;
  key := c_key s;
  getCount := Some (c_count s, comp_obj sortf s);
  moveto := fun c1 c2 => match comp_moveto s c1 c2 with
                         | Some s' => Some (comp_obj sortf s') | None => None end;
  ignoreSecondColumn := match comp_ignore s with
                        | Some s' => Some (comp_obj sortf s') | None => None end;
  mark := match comp_mark s with Some s' => Some (comp_obj sortf s') | None => None end;
  reset := fun r => match comp_reset s r with
                    | Some s' => Some (comp_obj sortf s') | None => None end;
  setKey := fun k => comp_obj sortf
     (mkComp (c_children s) (c_active s) (c_v1 s) (c_v2 s) k (c_ign s) (c_hn s) (c_hnc s)
        (c_sorted s) (c_decr s) (c_count s) (c_saved s)) |}.

(** compositeitr.cpp 230-247, CompositeItr::init followed by setKey (querier.cpp
    1124-1125 and 1195-1196).  The calls to hasNext inside assert (line 243) are omitted. *)
Definition comp_init (iterators : list pitr) (k : Z) : comp_st :=
  mkComp iterators (length iterators) (-1) (-1) k false
    (match iterators with [] => false | _ => true end) true false false 1
    (0, 0, 0, O, false, false).

Definition new_comp_itr (sortf : list pitr -> list pitr) (iterators : list pitr) (k : Z) : pitr :=
  comp_obj sortf (comp_init iterators k).

(** ** CompositeScanItr, include/trident/iterators/compositescanitr.h,
    src/trident/iterators/compositescanitr.cpp. *)
Record cscan_st := mkCScan {
  cs_children : list pitr;
  cs_hn : bool; cs_hnc : bool;
  cs_v1 : Z; cs_v2 : Z; cs_key : Z;
  cs_ign : bool;
  cs_count : Z
}.

(** compositescanitr.h 44-55 _sorter_noign and 57-64 _sorter_ign. *)
Definition cscan_gt (i1 i2 : pitr) : bool :=
  if key i2 <? key i1 then true
  else if key i1 =? key i2 then
    if value1 i2 <? value1 i1 then true
    else if value1 i1 =? value1 i2 then value2 i2 <? value2 i1 else false
  else false.
Definition cscan_gt_ign (i1 i2 : pitr) : bool :=
  if key i2 <? key i1 then true
  else if key i1 =? key i2 then value1 i2 <? value1 i1 else false.

(** compositescanitr.cpp 30-47, hasNext; [sortn] and [sorti] stand for std::sort with the two
    comparison functions. *)
Definition cscan_hasNext (sortn sorti : list pitr -> list pitr) (s : cscan_st) : bool * cscan_st :=
  if cs_hnc s then (cs_hn s, s)
  else
    let ch := if (1 <? length (cs_children s))%nat
              then (if cs_ign s then sorti else sortn) (cs_children s)
              else cs_children s in
    let hn := (0 <? length (cs_children s))%nat in
    (hn, mkCScan ch hn true (cs_v1 s) (cs_v2 s) (cs_key s) (cs_ign s) (cs_count s)).

(** compositescanitr.cpp 61-75: the loop of next when the second column is ignored.
    [n] is i + 1. *)
Fixpoint cscan_loop (n : nat) (k v1 : Z) (ch : list pitr) (cnt : Z) : option (list pitr * Z) :=
  match n with
  | O => Some (ch, cnt)
  | S i =>
    do c <- nth_error ch i;
    if (key c =? k) && (value1 c =? v1) then
      do (m, c1) <- getCount c;
      do (b, c2) <- hasNext c1;
      if b then
        do c3 <- next c2;
        cscan_loop i k v1 (upd i c3 ch) (cnt + m)
      else cscan_loop i k v1 (firstn i ch ++ skipn (S i) ch) (cnt + m)
    else cscan_loop i k v1 ch cnt
  end.

(** compositescanitr.cpp 49-78, next. *)
Definition cscan_next (s : cscan_st) : option cscan_st :=
  let n := length (cs_children s) in
  match n with
  | O => None
  | S last =>
    do c <- nth_error (cs_children s) last;
    let k := key c in
    let v1 := value1 c in
    if negb (cs_ign s) then
      let v2 := value2 c in
      do (b, c1) <- hasNext c;
      if b then
        do c2 <- next c1;
        Some (mkCScan (upd last c2 (cs_children s)) (cs_hn s) false v1 v2 k (cs_ign s) (cs_count s))
      else
        Some (mkCScan (firstn last (cs_children s)) (cs_hn s) false v1 v2 k (cs_ign s) (cs_count s))
    else
      do (ch, cnt) <- cscan_loop n k v1 (cs_children s) 0;
      Some (mkCScan ch (cs_hn s) false v1 (cs_v2 s) k (cs_ign s) cnt)
  end.

(** compositescanitr.cpp 119-132, ignoreSecondColumn.  The loop index is increased also
    after an erase, so the child that follows an erased one is skipped. *)
Fixpoint cscan_ignore_loop (fuel i : nat) (k v1 : Z) (ch : list pitr) : option (list pitr) :=
  match fuel with
  | O => Some ch
  | S f =>
    match nth_error ch i with
    | None => Some ch
    | Some c =>
      do c1 <- ignoreSecondColumn c;
      if (value1 c1 =? v1) && (key c1 =? k) then
        do (b, c2) <- hasNext c1;
        if b then
          do c3 <- next c2; cscan_ignore_loop f (S i) k v1 (upd i c3 ch)
        else cscan_ignore_loop f (S i) k v1 (firstn i ch ++ skipn (S i) ch)
      else cscan_ignore_loop f (S i) k v1 (upd i c1 ch)
    end
  end.

Definition cscan_ignore (s : cscan_st) : option cscan_st :=
  do ch <- cscan_ignore_loop (length (cs_children s)) 0 (cs_key s) (cs_v1 s) (cs_children s);
  Some (mkCScan ch (cs_hn s) (cs_hnc s) (cs_v1 s) (cs_v2 s) (cs_key s) true (cs_count s)).

(** compositescanitr.cpp 96-101, moveto. *)
Definition cscan_moveto (s : cscan_st) (c1 c2 : Z) : option cscan_st :=
  do ch <- mapo (fun c => moveto c c1 c2) (cs_children s);
  Some (mkCScan ch (cs_hn s) false (cs_v1 s) (cs_v2 s) (cs_key s) (cs_ign s) (cs_count s)).

(** The CompositeScanItr object; mark and reset throw (compositescanitr.h 79-85). *)
CoFixpoint cscan_obj (sortn sorti : list pitr -> list pitr) (s : cscan_st) : pitr := {|
  hasNext := let (b, s') := cscan_hasNext sortn sorti s in Some (b, cscan_obj sortn sorti s');
  next := match cscan_next s with
          | Some s' => Some (cscan_obj sortn sorti s') | None => None end;
  value1 := cs_v1 s;
  value2 := cs_v2 s;
  key := cs_key s;
  getCount := Some (cs_count s, cscan_obj sortn sorti s);
  moveto := fun c1 c2 => match cscan_moveto s c1 c2 with
                         | Some s' => Some (cscan_obj sortn sorti s') | None => None end;
  ignoreSecondColumn := match cscan_ignore s with
                        | Some s' => Some (cscan_obj sortn sorti s') | None => None end;
  mark := None;
  reset := fun _ => None;
  setKey := fun k => cscan_obj sortn sorti
     (mkCScan (cs_children s) (cs_hn s) (cs_hnc s) (cs_v1 s) (cs_v2 s) k (cs_ign s) (cs_count s)) |}.

(** compositescanitr.cpp 111-117, addChild for each iterator in turn (querier.cpp 1131-1133,
    1202-1204), after init (138-146; the key of a fresh object is not initialised, 0 here). *)
Fixpoint cscan_add_children (its : list pitr) : option (list pitr) :=
  match its with
  | [] => Some []
  | it :: rest =>
    do (b, it1) <- hasNext it;
    if b then
      do it2 <- next it1; do r <- cscan_add_children rest; Some (it2 :: r)
    else cscan_add_children rest
  end.

Definition new_cscan_itr (sortn sorti : list pitr -> list pitr) (its : list pitr) : option pitr :=
  do ch <- cscan_add_children its;
  Some (cscan_obj sortn sorti (mkCScan ch false false 0 0 0 false 1)).

(** ** Querier::getIterator: the overlay of updates, src/trident/kb/querier.cpp 1092-1213.
    [first] >= 0 selects CompositeItr, otherwise CompositeScanItr.  Each element of
    [diffs] is the kind of the update (true = DELETE_df) and the iterator the update
    returns for the request.  nfirstterms only feeds getCardinality and is left out. *)
Record sorters := { sort_comp : list pitr -> list pitr;
                    sort_scan : list pitr -> list pitr;
                    sort_scan_ign : list pitr -> list pitr }.

(** querier.cpp 1120-1138 and 1191-1209: combine the collected iterators. *)
Definition overlay_combine (so : sorters) (first : Z) (its : list pitr) : option pitr :=
  match its with
  | [] => None                      (* assertion at line 1118 *)
  | [it] => Some it
  | _ => if 0 <=? first then Some (new_comp_itr (sort_comp so) its first)
         else new_cscan_itr (sort_scan so) (sort_scan_ign so) its
  end.

Fixpoint overlay_loop (fuel : nat) (so : sorters) (first : Z) (diffs : list (bool * pitr))
  (iterators : list pitr) (out : pitr) : option (list pitr * pitr) :=
  match diffs with
  | [] => Some (iterators, out)
  | (true, diffItr) :: rest =>      (* DELETE_df, lines 1102-1147 *)
    do (b, d1) <- hasNext diffItr;
    if b then
      do (ob, out1) <- hasNext out;
      do mainitr <- overlay_combine so first (if ob then iterators ++ [out1] else iterators);
      do r <- new_rm_itr fuel mainitr d1;
      overlay_loop fuel so first rest [] r
    else overlay_loop fuel so first rest iterators out
  | (false, diffItr) :: rest =>     (* ADD_df, lines 1148-1183 *)
    do (b, d1) <- hasNext diffItr;
    if b then overlay_loop fuel so first rest (iterators ++ [d1]) out
    else overlay_loop fuel so first rest iterators out
  end.

Definition overlay (fuel : nat) (so : sorters) (first : Z) (diffs : list (bool * pitr))
  (out : pitr) : option pitr :=
  do (iterators, out1) <- overlay_loop fuel so first diffs [] out;
  match iterators with
  | [] => Some out1
  | _ =>
    do (ob, out2) <- hasNext out1;
    overlay_combine so first (if ob then iterators ++ [out2] else iterators)
  end.
