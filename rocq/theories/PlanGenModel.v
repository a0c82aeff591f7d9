(** The plan generator (rdf3x/src/cts/PlanGen.cpp): dynamic programming over sets of patterns.

    Modelled: a query whose group has triple patterns only.  The costs
    that are estimated are not modelled: the comparisons of costs are parameters, so that the theorems hold for
    every estimate, even one that is not a number. *)
From Coq Require Export NArith.
From Verif Require Export PlanModel.

(** ** rdf3x/include/cts/infra/BitSet.hpp 16-59.  Positions are below 64, see translate_int. *)
Definition bs_set (i : nat) (v : N) : N := N.lor v (N.shiftl 1 (N.of_nat i)).
Definition bs_subset (a b : N) : bool := N.eqb (N.land a b) a.
Definition bs_overlaps (a b : N) : bool := negb (N.eqb (N.land a b) 0).
Definition bs_union (a b : N) : N := N.lor a b.
Definition bs_max : nat := 64.

(** rdf3x/include/cts/plangen/PlanGen.hpp 22-29, Problem; the list by next is a list of problems. *)
Record problem := mkProblem { pr_rel : N; pr_plans : list plan }.
(** PlanGen.cpp 29-38, JoinDescription: two patterns, the variable of a merge join, whether the estimated
    selectivity is negative. *)
Record join := mkJoin { j_left : nat; j_right : nat; j_ordering : nat; j_negative : bool }.

Section PlanGen.
(** [le p q]: the costs of p are at most those of q; [ge p q]: at least; [better p q]: PlanGen.cpp 1467. *)
Variables (le ge better : plan -> plan -> bool) (negative : nat -> nat -> bool) (nodes : list node) (projection : list nat).

(** 55-107, addPlan.  The loop returns the plans that stay and whether the new one is dropped. *)
Definition ordering_eqb (a b : option nat) : bool :=
  match a, b with Some x, Some y => (x =? y)%nat | None, None => true | _, _ => false end.
Fixpoint add_ordered (p : plan) (l : list plan) : list plan * bool :=
  match l with
  | [] => ([], false)
  | q :: l' =>
    if ordering_eqb (ordering nodes q) (ordering nodes p) then if le q p then (l, true) else add_ordered p l'
    else if match ordering nodes q with None => true | Some _ => false end && ge q p then add_ordered p l'
    else let '(l'', b) := add_ordered p l' in (q :: l'', b)
  end.
Fixpoint add_unordered (p : plan) (l : list plan) : list plan * bool :=
  match l with
  | [] => ([], false)
  | q :: l' =>
    if le q p then (l, true)
    else if ordering_eqb (ordering nodes q) (ordering nodes p) then add_unordered p l'
    else let '(l'', b) := add_unordered p l' in (q :: l'', b)
  end.
Definition addPlan (p : plan) (l : list plan) : list plan :=
  let '(l', b) := match ordering nodes p with Some _ => add_ordered p l | None => add_unordered p l end in
  if b then l' else p :: l'.

(** 427-502, isUnused: the variable is not projected, and no other pattern has it. *)
Definition others (i : nat) : list nat := flat_map (fun j => if (j =? i)%nat then [] else node_vars nodes j) (seq 0 (length nodes)).
Definition isUnused (i v : nat) : bool := negb (mem v projection) && negb (mem v (others i)).
(** 564-606: a scan of an index; an aggregated one if the last column is unused, none for a constant after a
    variable then (317-320). *)
Definition scan_of (i idx : nat) (u : bool) : list plan :=
  let '(k1, k2, k3) := columns idx in
  match slot (node_of nodes i) k3 with
  | Const _ => [IndexScan u idx i]
  | Var v =>
    if negb (isUnused i v) then [IndexScan u idx i]
    else if bound nodes i k2 && negb (bound nodes i k1) then [] else [AggregatedIndexScan u idx i]
  end.
(** 552-562: scans that skip two columns, of the index that begins with the slot that is left. *)
Definition unused_slot (i k : nat) : bool := match slot (node_of nodes i) k with Var v => isUnused i v | Const _ => false end.
Definition full_idx (i : nat) : nat := if negb (unused_slot i 0) then 0%nat else if negb (unused_slot i 2) then 4%nat else 5%nat.
Definition full_scans (i : nat) : list plan := [FullyAggregatedIndexScan false (full_idx i) i; FullyAggregatedIndexScan true (full_idx i) i].
(** 533-619, buildScan: six indices, each also without order; scans that skip two columns if two are unused. *)
Definition scans (i : nat) : list plan := flat_map (fun idx => scan_of i idx false ++ scan_of i idx true) [5; 4; 3; 2; 1; 0]%nat.
Definition buildScan (i : nat) : problem :=
  let ps := if (2 <=? length (filter (isUnused i) (node_vars nodes i)))%nat then full_scans i else scans i in
  mkProblem (bs_set i 0) (fold_left (fun l p => addPlan p l) ps []).

(** QueryGraph.cpp 182-217, intersects; 271-274, constructEdges; PlanGen.cpp 621-653, buildJoinInfo: the
    first of the common variables. *)
Definition intersects (a b : list nat) : list nat := addAll (filter (fun v => mem v b) a) [].
Definition edges : list join :=
  flat_map (fun i => flat_map (fun j => match intersects (node_vars nodes i) (node_vars nodes j) with [] => [] | v :: _ => [mkJoin i j v (negative i j)] end)
    (seq (S i) (length nodes - S i))) (seq 0 (length nodes)).

(** 1074-1126: the first join that applies; the orderings are those of this join and of all that follow. *)
Fixpoint find_join (js : list join) (l r : N) : option (bool * list nat) :=
  match js with
  | [] => None
  | j :: js' => if bs_subset (bs_set (j_left j) 0) l && bs_subset (bs_set (j_right j) 0) r then Some (j_negative j, j_ordering j :: map j_ordering js') else find_join js' l r
  end.
(** 1130-1188: the plans for two plans. *)
Definition combine_one (neg : bool) (ords : list nat) (l r : plan) : list plan :=
  match ordering nodes l, ordering nodes r with
  | Some a, Some b => if (a =? b)%nat && mem a ords then [MergeJoin a l r] else []
  | _, _ => []
  end ++ (if neg then [NestedLoopJoin l r] else [HashJoin l r; HashJoin r l]).
Definition combine_all (neg : bool) (ords : list nat) (ls rs : list plan) : list plan :=
  flat_map (fun l => flat_map (combine_one neg ords l) rs) ls.
(** 1081-1091: the problem of these patterns, a new one in front. *)
Definition update (rel : N) (ps : list plan) (t : list problem) : list problem :=
  if existsb (fun pb => N.eqb (pr_rel pb) rel) t
  then map (fun pb => if N.eqb (pr_rel pb) rel then mkProblem rel (fold_left (fun l p => addPlan p l) ps (pr_plans pb)) else pb) t
  else mkProblem rel (fold_left (fun l p => addPlan p l) ps []) :: t.
(** 1069-1188: one pair of problems. *)
Definition join_step (t : list problem) (lr : problem * problem) : list problem :=
  let '(l, r) := lr in
  if bs_overlaps (pr_rel l) (pr_rel r) then t else
  match pr_plans l with
  | [] => t
  | _ => match find_join edges (pr_rel l) (pr_rel r) with
         | None => t
         | Some (neg, ords) => update (bs_union (pr_rel l) (pr_rel r)) (combine_all neg ords (pr_plans l) (pr_plans r)) t
         end
  end.
(** 1063-1068: the pairs in the order of the loops. *)
Definition level_pairs (dp : list (list problem)) : list (problem * problem) :=
  let index := length dp in
  flat_map (fun index2 => list_prod (nth index2 dp []) (nth (index - index2 - 1) dp [])) (seq 0 index).
(** 1192-1227: if there is nothing, the first two problems that do not overlap make a product. *)
Definition cart_level (dp : list (list problem)) : list problem :=
  match find (fun lr => negb (bs_overlaps (pr_rel (fst lr)) (pr_rel (snd lr)))) (level_pairs dp) with
  | None => []
  | Some (l, r) => update (bs_union (pr_rel l) (pr_rel r)) (flat_map (fun p => map (CartProd p) (pr_plans r)) (pr_plans l)) []
  end.
Definition next_level (dp : list (list problem)) : list problem :=
  match fold_left join_step (level_pairs dp) [] with [] => cart_level dp | t => t end.
Fixpoint grow (k : nat) (dp : list (list problem)) : list (list problem) :=
  match k with O => dp | S k' => grow k' (dp ++ [next_level dp]) end.
Definition seeds (is : list nat) : list problem := map buildScan is.
(** 895-1010 and 1063-1237, translate_int.  [None]: no plan (more than 64 patterns, or none), or an exception. *)
Definition translate_int : option (list plan) :=
  if (bs_max <? length nodes)%nat then None else
  match nodes with
  | [] => None
  | _ :: rest =>
    match last (grow (length rest) [seeds (seq 0 (length nodes))]) [] with [] => None | pb :: _ => Some (pr_plans pb) end
  end.
(** 1452-1470, translate: the best of these plans. *)
Definition translate : option plan :=
  do ps <- translate_int;
  match ps with [] => None | p :: ps => Some (fold_left (fun best p => if better p best then p else best) ps p) end.
End PlanGen.
