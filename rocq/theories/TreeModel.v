(** The B+tree with numeric keys, src/trident/tree.

    A tree is a value: the parent pointers, the node identifiers, the cache that evicts
    nodes to disk and loads them again (cache.cpp, nodemanager.cpp) and the allocation of
    the arrays are left out; every node stays in memory.  [None] stands for undefined
    behaviour (an access outside of an array). *)
From Verif Require Export TableModel.
Local Open Scope Z_scope.

(** ** Node, node.h 42-54: the keys of a node.

    [kn_keys] holds the used entries of the array [keys], which are differences to
    [firstKey]; it is not looked at while [consecutive] is set. *)
Record kn := mkKn { kn_first : Z; kn_keys : list Z; kn_cons : bool; kn_step : Z; kn_size : nat }.

(** node.h 81-95, constructor. *)
Definition kn_new : kn := mkKn 0 [] true 1 0.

(** keys[i]; reading an entry that was never written gives some value, here 0. *)
Definition kn_at (n : kn) (i : Z) : Z := nth (Z.to_nat i) (kn_keys n) 0.

(** node.cpp 62-76, binary search in the differences. *)
Fixpoint kn_search (fuel : nat) (n : kn) (diff low high : Z) : Z :=
  match fuel with
  | O => -(low + 2)
  | S f =>
    if low <=? high then
      let mid := (low + high) / 2 in
      if kn_at n mid <? diff then kn_search f n diff (mid + 1) high
      else if diff <? kn_at n mid then kn_search f n diff low (mid - 1)
      else mid + 1
    else -(low + 2)
  end.

(** node.cpp 33-80, Node::pos(int64_t): the index of the key, or -i-1 where i is the index at
    which it has to be inserted. *)
Definition kn_pos (n : kn) (key : Z) : Z :=
  let size := Z.of_nat (kn_size n) in
  if (size =? 0) || (key <? kn_first n) then -1 else
  let diff := key - kn_first n in
  if kn_cons n then
    if diff <? size * kn_step n then
      if 1 <? kn_step n then
        if diff mod kn_step n =? 0 then diff / kn_step n else -(diff / kn_step n + 1) - 1
      else diff
    else - size - 1
  else
    if diff =? 0 then 0 else
    if size =? 1 then -2 else
    if diff =? kn_at n (size - 2) then size - 1 else
    if kn_at n (size - 2) <? diff then - size - 1 else
    kn_search (kn_size n) n diff 0 (size - 3).

(** node.cpp 180-190, Node::keyAt. *)
Definition kn_keyAt (n : kn) (p : nat) : Z :=
  if kn_cons n then kn_first n + Z.of_nat p * kn_step n
  else match p with O => kn_first n | S i => kn_first n + nth i (kn_keys n) 0 end.

(** node.cpp 82-92, Node::localLargestNumericKey. *)
Definition kn_largest (n : kn) : Z :=
  if (kn_size n =? 1)%nat then kn_first n
  else if kn_cons n then kn_first n + (Z.of_nat (kn_size n) - 1) * kn_step n
  else kn_first n + kn_at n (Z.of_nat (kn_size n) - 2).

(** 1, 2, ..., n. *)
Definition upto (n : nat) : list Z := map Z.of_nat (seq 1 n).

(** node.cpp 248-295, Node::putkeyAt(nTerm, int). *)
Definition kn_put (n : kn) (key : Z) (p : nat) : kn :=
  let s := kn_size n in
  if (p =? 0)%nat then
    if (s =? 0)%nat then mkKn key (kn_keys n) (kn_cons n) (kn_step n) (S s)
    else
      let diff := kn_first n - key in
      if kn_cons n then mkKn key (diff :: map (Z.add diff) (upto (s - 1))) false (kn_step n) (S s)
      else mkKn key (diff :: map (Z.add diff) (kn_keys n)) false (kn_step n) (S s)
  else
    if kn_cons n then
      let diff := key - kn_first n in
      if negb (Z.of_nat p =? diff) then
        mkKn (kn_first n) (firstn (p - 1) (upto (s - 1)) ++ [diff] ++ skipn p (upto (s - 1))) false (kn_step n) (S s)
      else mkKn (kn_first n) (kn_keys n) true (kn_step n) (S s)
    else
      mkKn (kn_first n) (firstn (p - 1) (kn_keys n) ++ [key - kn_first n] ++ skipn (p - 1) (kn_keys n)) false (kn_step n) (S s).

(** node.cpp 304-338, Node::removeKeyAtPos. *)
Definition kn_remove (n : kn) (p : nat) : kn :=
  let s := kn_size n in
  if (1 <? s)%nat && (p <? s - 1)%nat then
    if kn_cons n then
      if (p =? 0)%nat then mkKn (kn_first n + 1) (kn_keys n) true (kn_step n) (s - 1)
      else mkKn (kn_first n) (firstn (p - 1) (upto (s - 1)) ++ map (Z.add 1) (skipn (p - 1) (upto (s - 2)))) false (kn_step n) (s - 1)
    else
      if (p =? 0)%nat then
        let diff := kn_at n 0 in
        mkKn (kn_first n + diff) (map (fun x => x - diff) (skipn 1 (kn_keys n))) false (kn_step n) (s - 1)
      else mkKn (kn_first n) (firstn (p - 1) (kn_keys n) ++ skipn p (kn_keys n)) false (kn_step n) (s - 1)
  else mkKn (kn_first n) (firstn (s - 2) (kn_keys n)) (kn_cons n) (kn_step n) (s - 1).

(** node.h 140-146. *)
Definition kn_removeLast (n : kn) : kn := kn_remove n (kn_size n - 1).
Definition kn_removeFirst (n : kn) : kn := kn_remove n 0.

(** node.cpp 224-246, Node::split.  [mx] is the capacity and [r] the node that receives the
    upper half; the fields of [r] that the code does not assign keep their values. *)
Definition kn_split (mx : nat) (n r : kn) : kn * kn :=
  let mn := Nat.div2 mx in
  let left := mkKn (kn_first n) (firstn (mn - 1) (kn_keys n)) (kn_cons n) (kn_step n) mn in
  if kn_cons n then (left, mkKn (kn_first n + Z.of_nat mn) (kn_keys r) true (kn_step r) mn)
  else
    let d := kn_at n (Z.of_nat mn - 1) in
    if kn_at n (Z.of_nat mx - 2) - d + 1 =? Z.of_nat mn then (left, mkKn (kn_first n + d) (kn_keys r) true (kn_step r) mn)
    else (left, mkKn (kn_first n + d) (map (fun x => x - d) (firstn (mn - 1) (skipn mn (kn_keys n)))) false (kn_step r) mn).

(** node.cpp 220-222. *)
Definition kn_full (mx : nat) (n : kn) : bool := (kn_size n =? mx)%nat.

(** The position at which the search goes on: intermediatenode.cpp 91-98, 119-121, 290-295. *)
Definition kn_child (n : kn) (key : Z) : nat :=
  let p := kn_pos n key in Z.to_nat (if p <? 0 then - p - 1 else p).

(** Signed 64-bit wrap-around and the average of intermediatenode.cpp 46-48 and 195-199
    (C division rounds towards 0). *)
Definition wrap64 (z : Z) : Z := (z + 2 ^ 63) mod 2 ^ 64 - 2 ^ 63.
Definition average (a b : Z) : Z := Z.quot (wrap64 (a + b)) 2.

(** Insertion in an array of [l]'s length by memmove and assignment. *)
Definition ins_at {A} (p : nat) (x : A) (l : list A) : list A := firstn p l ++ x :: skipn p l.
Definition set_at {A} (p : nat) (x : A) (l : list A) : list A := firstn p l ++ x :: skipn (S p) l.

(** children[p]->f(). *)
Definition at_child {A R} (f : A -> option R) : nat -> list A -> option R :=
  fix go (p : nat) (l : list A) {struct l} : option R :=
    match l with
    | [] => None
    | c :: l' => match p with O => f c | S q => go q l' end
    end.

Section Values.
(** The values of the leaves.  [P] is what put receives and [V] what the leaf stores:
    a value is stored as [store x] for a new key and [update v x] for a key with value [v].
    For the numeric values (Leaf::put(nTerm, int64_t)) both are [x]; for the term coordinates
    they are addCoordinates (below). *)
Variables P V : Type.
Variable store : P -> V.
Variable update : V -> P -> V.
(** The capacity getMaxElementsPerNode(). *)
Variable mx : nat.

Inductive tree := Leaf (n : kn) (vs : list V) | Inter (n : kn) (cs : list tree).

(** root.cpp 92-97: a new tree is an empty leaf. *)
Definition tr_new : tree := Leaf kn_new [].

(** leaf.cpp 711-717 and intermediatenode.cpp 129-137: smallestNumericKey,
    largestNumericKey. *)
Fixpoint smallest (t : tree) : option Z :=
  match t with
  | Leaf n _ => Some (kn_first n)
  | Inter _ cs => at_child smallest 0 cs
  end.
Fixpoint largest (t : tree) : option Z :=
  match t with
  | Leaf n _ => Some (kn_largest n)
  | Inter n cs => at_child largest (kn_size n) cs
  end.

(** leaf.cpp 290-307 and root.cpp 106-121: get. *)
Definition leaf_get (n : kn) (vs : list V) (key : Z) : option (option V) :=
  let p := kn_pos n key in
  if p <? 0 then Some None else do v <- nth_error vs (Z.to_nat p); Some (Some v).
Fixpoint get (t : tree) (key : Z) : option (option V) :=
  match t with
  | Leaf n vs => leaf_get n vs key
  | Inter n cs => at_child (fun c => get c key) (kn_child n key) cs
  end.

(** leaf.cpp 366-388: insertion in a leaf that is not full, or change of a value. *)
Definition leaf_add (n : kn) (vs : list V) (p key : Z) (x : P) : option (kn * list V) :=
  if p <? 0 then
    let q := Z.to_nat (- p - 1) in
    Some (kn_put n key q, ins_at q (store x) vs)
  else
    do v <- nth_error vs (Z.to_nat p);
    Some (n, set_at (Z.to_nat p) (update v x) vs).

(** leaf.cpp 339-390, Leaf::insertAtPosition(int, nTerm, int64_t), and 495-579 for term
    coordinates.  After a split the key is put into one of the halves, which is not full.
    The values are one list; the two arrays of term coordinates are modelled below. *)
Definition leaf_insert (n : kn) (vs : list V) (p key : Z) (x : P) : option (tree * option tree) :=
  if (p <? 0) && kn_full mx n then
    let mn := Nat.div2 mx in
    let '(n1, n2) := kn_split mx n kn_new in
    let v1 := firstn mn vs in
    let v2 := firstn mn (skipn mn vs) in
    if - p - 1 <? Z.of_nat mn then
      do (m, w) <- leaf_add n1 v1 (kn_pos n1 key) key x;
      Some (Leaf m w, Some (Leaf n2 v2))
    else
      do (m, w) <- leaf_add n2 v2 (kn_pos n2 key) key x;
      Some (Leaf n1 v1, Some (Leaf m w))
  else
    do (m, w) <- leaf_add n vs p key x;
    Some (Leaf m w, None).

(** intermediatenode.cpp 195-199, numAvg, on the children [c] and [split]. *)
Definition numAvg (n : kn) (p : nat) (c split : tree) : option kn :=
  do a <- largest c;
  do b <- smallest split;
  Some (kn_put n (average a b) p).

(** intermediatenode.cpp 207-288, IntermediateNode::updateChildren; [cs] already holds the
    changed child at [p]. *)
Definition updateChildren (n : kn) (cs : list tree) (p : nat) (split : tree) : option (tree * option tree) :=
  if kn_full mx n then
    let mn := Nat.div2 mx in
    let '(n0, n1) := kn_split mx n kn_new in
    if (p <? mn)%nat then
      let c1 := firstn (mn + 1) (skipn mn cs) in
      let c0 := firstn mn cs in
      do c <- nth_error c0 p;
      do m <- numAvg (kn_removeLast n0) p c split;
      Some (Inter m (ins_at (S p) split c0), Some (Inter n1 c1))
    else
      let c1 := firstn mn (skipn (mn + 1) cs) in
      let c0 := firstn (mn + 1) cs in
      if (mn <? p)%nat then
        let q := (p - (mn + 1))%nat in
        do c <- nth_error c1 q;
        do m <- numAvg (kn_removeFirst n1) q c split;
        Some (Inter n0 c0, Some (Inter m (ins_at (S q) split c1)))
      else Some (Inter n0 c0, Some (Inter n1 (split :: c1)))
  else
    do c <- nth_error cs p;
    do m <- numAvg n p c split;
    Some (Inter m (ins_at (S p) split cs), None).

(** leaf.cpp 393-397 and 581-585, intermediatenode.cpp 290-321: put. *)
Fixpoint put_node (t : tree) (key : Z) (x : P) : option (tree * option tree) :=
  match t with
  | Leaf n vs => leaf_insert n vs (kn_pos n key) key x
  | Inter n cs =>
    let p := kn_child n key in
    do (c, s) <- at_child (fun c => put_node c key x) p cs;
    match s with
    | None => Some (Inter n (set_at p c cs), None)
    | Some s => updateChildren n (set_at p c cs) p s
    end
  end.

(** leaf.cpp 474-478 and 587-591, intermediatenode.cpp 352-374: append, which always goes to the last
    child and inserts at the end. *)
Fixpoint append_node (t : tree) (key : Z) (x : P) : option (tree * option tree) :=
  match t with
  | Leaf n vs => leaf_insert n vs (- Z.of_nat (kn_size n) - 1) key x
  | Inter n cs =>
    let p := kn_size n in
    do (c, s) <- at_child (fun c => append_node c key x) p cs;
    match s with
    | None => Some (Inter n (set_at p c cs), None)
    | Some s => updateChildren n (set_at p c cs) p s
    end
  end.

(** root.cpp 149-183, 198-222, intermediatenode.cpp 35-56: after a split of the root
    a new root with two children. *)
Definition grow (r : tree * option tree) : option tree :=
  match snd r with
  | None => Some (fst r)
  | Some s => do m <- numAvg kn_new 0 (fst r) s; Some (Inter m [fst r; s])
  end.
Definition put (t : tree) (key : Z) (x : P) : option tree := do r <- put_node t key x; grow r.
Definition append (t : tree) (key : Z) (x : P) : option tree := do r <- append_node t key x; grow r.

(** ** TreeItr.

    A position in the tree is a leaf and its ancestors, nearest first, each with the index
    of the child on the path.  The code finds this index with
    IntermediateNode::getPosChild (intermediatenode.cpp 105-127): the child is looked up by
    its smallest key and compared by address, so a wrong place is answered by -1. *)
Definition frame := (kn * list tree * nat)%type.
Record cursor := mkCur { c_path : list frame; c_keys : kn; c_vals : list V; c_pos : nat }.

Definition getPosChild (f : frame) (child : tree) : Z :=
  let '(n, cs, i) := f in
  match smallest child with
  | Some k => if (kn_child n k =? i)%nat then Z.of_nat i else -1
  | None => -1
  end.

(** Going down: root.cpp 242-256 (Root::itr, by key 0) and leaf.cpp 765-768 (by child 0). *)
Fixpoint down_key (t : tree) (path : list frame) : option cursor :=
  match t with
  | Leaf n vs => Some (mkCur path n vs 0)
  | Inter n cs => let p := kn_child n 0 in at_child (fun c => down_key c ((n, cs, p) :: path)) p cs
  end.
Fixpoint down_first (t : tree) (path : list frame) : option cursor :=
  match t with
  | Leaf n vs => Some (mkCur path n vs 0)
  | Inter n cs => at_child (fun c => down_first c ((n, cs, 0%nat) :: path)) 0 cs
  end.

(** leaf.cpp 750-773, Leaf::getRightSibling.  The result [Some None] is the leaf itself. *)
Fixpoint right (child : tree) (path : list frame) : option (option cursor) :=
  match path with
  | [] => Some None
  | (n, cs, i) :: up =>
    let pos := getPosChild (n, cs, i) child in
    if pos =? Z.of_nat (kn_size n) then
      match up with
      | [] => Some None
      | _ => right (Inter n cs) up
      end
    else if pos <? Z.of_nat (kn_size n) then
      let j := Z.to_nat (pos + 1) in
      do r <- at_child (fun c => down_first c ((n, cs, j) :: up)) j cs;
      Some (Some r)
    else Some None
  end.

(** treeitr.cpp 38-55, TreeItr::hasNext: the answer and the cursor afterwards. *)
Definition itr_hasNext (c : cursor) : option (bool * cursor) :=
  if (kn_size (c_keys c) <=? c_pos c)%nat then
    do r <- right (Leaf (c_keys c) (c_vals c)) (c_path c);
    match r with
    | None => Some (false, c)
    | Some d => Some (true, d)
    end
  else Some (true, c).

(** treeitr.cpp 57-67, TreeItr::next: key, value and the cursor afterwards. *)
Definition itr_next (c : cursor) : option (Z * V * cursor) :=
  do v <- nth_error (c_vals c) (c_pos c);
  Some (kn_keyAt (c_keys c) (c_pos c), v, mkCur (c_path c) (c_keys c) (c_vals c) (S (c_pos c))).

Definition itr (t : tree) : option cursor := down_key t [].

End Values.
Arguments Leaf {V} n vs.
Arguments Inter {V} n cs.
Arguments tr_new {V}.
Arguments smallest {V} t.
Arguments largest {V} t.
Arguments leaf_get {V} n vs key.
Arguments get {V} t key.
Arguments leaf_add {P V} store update n vs p key x.
Arguments leaf_insert {P V} store update mx n vs p key x.
Arguments numAvg {V} n p c split.
Arguments updateChildren {V} mx n cs p split.
Arguments put_node {P V} store update mx t key x.
Arguments append_node {P V} store update mx t key x.
Arguments grow {V} r.
Arguments put {P V} store update mx t key x.
Arguments append {P V} store update mx t key x.
Arguments mkCur {V} c_path c_keys c_vals c_pos.
Arguments c_path {V} c.
Arguments c_keys {V} c.
Arguments c_vals {V} c.
Arguments c_pos {V} c.
Arguments getPosChild {V} f child.
Arguments down_key {V} t path.
Arguments down_first {V} t path.
Arguments right {V} child path.
Arguments itr_hasNext {V} c.
Arguments itr_next {V} c.
Arguments itr {V} t.

(** ** The term coordinates of a leaf. *)

(** include/trident/tree/coordinates.h: what a TermCoordinates holds for one permutation;
    [tc i] is what exists(i) and the getters return for permutation [i]. *)
Record coord := mkCoord { co_n : Z; co_strat : Z; co_file : Z; co_pos : Z }.
Definition tc := nat -> option coord.

(** leaf.cpp 593-641, Leaf::addCoordinates: the linked list of (permutation, coordinates) is
    changed in one pass over the permutations [i..5].  [pre] is the part of the list before
    [current], in reverse order. *)
Fixpoint advance (i : nat) (pre cur : list (nat * coord)) : list (nat * coord) * list (nat * coord) :=
  match cur with
  | (j, c) :: cur' => if (j <? i)%nat then advance i ((j, c) :: pre) cur' else (pre, cur)
  | [] => (pre, [])
  end.
Definition add_one (v : tc) (i : nat) (pre cur : list (nat * coord)) : list (nat * coord) * list (nat * coord) :=
  match v i with
  | Some c =>
    let '(pre, cur) := advance i pre cur in
    match cur with
    | [] => (pre, [(i, c)])
    | (j, d) :: cur' => if (i <? j)%nat then (pre, (i, c) :: cur) else (pre, (i, c) :: cur')
    end
  | None =>
    match cur with
    | (j, d) :: cur' => if (j =? i)%nat then (pre, cur') else (pre, cur)
    | [] => (pre, cur)
    end
  end.
Fixpoint add_loop (v : tc) (is_ : list nat) (pre cur : list (nat * coord)) : list (nat * coord) :=
  match is_ with
  | [] => rev pre ++ cur
  | i :: r => let '(pre, cur) := add_one v i pre cur in add_loop v r pre cur
  end.
Definition addCoordinates (l : list (nat * coord)) (v : tc) : list (nat * coord) := add_loop v (seq 0 6) [] l.

(** include/trident/tree/coordinates.h, 59-71, TermCoordinates::set(Coordinates* ): clear and copy the
    list. *)
Definition tc_of (l : list (nat * coord)) : tc := fun i =>
  match find (fun p => (fst p =? i)%nat) (rev l) with Some p => Some (snd p) | None => None end.

(** ** The two arrays of term coordinates.
    leaf.cpp 515-566: insertion in a leaf that is not full; [a] holds the first [mn] values and
    [b] the others, [size] is the number of values. *)
Definition arr_put {A} (mn : nat) (size : nat) (a b : list A) (p : nat) (x : A) : option (list A * list A) :=
  if (p <? mn)%nat then
    if (mn <=? size)%nat then
      do last <- nth_error a (mn - 1);
      Some (firstn p a ++ x :: firstn (mn - p - 1) (skipn p a), last :: b)
    else Some (firstn p a ++ x :: skipn p a, b)
  else
    let q := (p - mn)%nat in
    Some (a, firstn q b ++ x :: skipn q b).
(** leaf.cpp 568-576: change of a value. *)
Definition arr_get {A} (mn : nat) (a b : list A) (p : nat) : option A :=
  if (p <? mn)%nat then nth_error a p else nth_error b (p - mn).
(** leaf.cpp 502-504: a split moves the second array to the new leaf. *)
Definition arr_split {A} (a b : list A) : (list A * list A) * (list A * list A) := ((a, []), (b, [])).
