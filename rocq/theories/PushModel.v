(** PlanGen.cpp and CodeGen.cpp, continued: FILTERs that the plan generator puts above the scans. *)
From Verif Require Import FullModel KbModel TsKbModel.
From Verif Require Import PlanModel FiltModel.
From Verif Require Import SelModel.
From Verif Require Import PlanModel FiltModel.
Local Open Scope Z_scope.

Section Pushed.
Variables (w : world) (fuel : nat) (memory : Z) (open : nat -> option Z -> option Z -> option Z -> option pitr) (terms : nat -> option pitr) (nodes : list node) (filters : list filt).

(** QueryGraph.cpp 138-160, isApplicable: all variables of the filter are among [vs].  Simplification: no subqueries (NOT EXISTS). *)
Definition applicable (vs : list nat) (f : filt) : bool := forallb (fun v => mem v vs) (filter_vars f).
(** PlanGen.cpp 308, 357, 399: the variables that a scan passes to buildFilters. *)
Definition scan_vars (p : plan) : list nat :=
  match p with
  | IndexScan _ idx i => let '(k1, k2, k3) := columns idx in slot_vars nodes i k1 ++ slot_vars nodes i k2 ++ slot_vars nodes i k3
  | AggregatedIndexScan _ idx i => let '(k1, k2, k3) := columns idx in slot_vars nodes i k1 ++ slot_vars nodes i k2
  | FullyAggregatedIndexScan _ idx i => let '(k1, k2, k3) := columns idx in slot_vars nodes i k1
  | _ => []
  end.
(** PlanGen.cpp 154-156. *)
Definition ordering_only (p : plan) : list nat := match ordering nodes p with Some v => [v] | None => [] end.
(** PlanGen.cpp 150-210, buildFilters: the filters that are put above a scan, the innermost first.  Those on the
    variable by which the rows are ordered come first.  Costs and cardinalities are left out. *)
Definition buildFilters (p : plan) : list filt :=
  filter (applicable (ordering_only p)) filters ++ filter (fun f => applicable (scan_vars p) f && negb (applicable (ordering_only p) f)) filters.
(** CodeGen.cpp 995-1070, translatePlan, for a plan the scans of which have the filters of buildFilters above them.  The joins are those
    of [translatePlan]. *)
Fixpoint translatePushed (proj : list nat) (p : plan) : option (oper * bindings) :=
  match p with
  | IndexScan _ _ _ | AggregatedIndexScan _ _ _ | FullyAggregatedIndexScan _ _ _ =>
    translateFilters w fuel memory open terms nodes proj (rev (buildFilters p)) p
  | NestedLoopJoin l r =>
    let vs := getJoinVariables nodes l r in
    do (lt, lb) <- translatePushed (addAll vs proj) l;
    do (rt, rb) <- translatePushed (addAll vs proj) r;
    do o <- addAdditionalSelections w fuel (nested_loop_join fuel lt rt 0) vs lb rb None;
    Some (o, mergeBindings proj lb rb)
  | MergeJoin on l r =>
    let vs := getJoinVariables nodes l r in
    if negb (mem on vs) then None else
    do (lt, lb) <- translatePushed (addAll vs proj) l;
    do (rt, rb) <- translatePushed (addAll vs proj) r;
    do lr <- bget on lb; do rr <- bget on rb;
    do o <- addAdditionalSelections w fuel (merge_join fuel lr rr (tail_of lb on) (tail_of rb on) (is_optional l) (is_optional r) lt rt) vs lb rb (Some on);
    Some (o, mergeBindings proj lb rb)
  | HashJoin l r =>
    let vs := getJoinVariables nodes l r in
    match vs with
    | [] => None
    | on :: _ =>
      do (lt, lb) <- translatePushed (addAll vs proj) l;
      do (rt, rb) <- translatePushed (addAll vs proj) r;
      do lr <- bget on lb; do rr <- bget on rb;
      do o <- addAdditionalSelections w fuel (hash_join fuel memory (fun _ => true) lr rr (tail_of lb on) (tail_of rb on) (is_optional l) (is_optional r) lt rt) vs lb rb (Some on);
      Some (o, mergeBindings proj lb rb)
    end
  | CartProd l r =>
    do (lt, lb) <- translatePushed proj l;
    do (rt, rb) <- translatePushed proj r;
    Some (cart_prod fuel (map snd lb) (map snd rb) (is_optional l) (is_optional r) lt rt, mergeBindings proj lb rb)
  | Optional p => translatePushed proj p
  end.

(** PlanGen.cpp 851-893, findFilters: the filter is above one of the scans of the plan.  The code compares addresses; equal filters
    are put above the same scans. *)
Fixpoint applied (f : filt) (p : plan) : bool :=
  match p with
  | IndexScan _ _ _ | AggregatedIndexScan _ _ _ | FullyAggregatedIndexScan _ _ _ => applicable (ordering_only p) f || applicable (scan_vars p) f
  | NestedLoopJoin l r | MergeJoin _ l r | HashJoin l r | CartProd l r => applied f l || applied f r
  | Optional p => applied f p
  end.
(** CodeGen.cpp 721-782, translateFilter, for the filters above the joins, the outermost first. *)
Fixpoint translateAbove (proj : list nat) (fs : list filt) (p : plan) : option (oper * bindings) :=
  match fs with
  | [] => translatePushed proj p
  | f :: fs' =>
    let vs := addAll (filter_vars f) [] in
    do (tree, b) <- translateAbove (addAll vs proj) fs' p;
    do o <- filter_tree w fuel b f tree;
    Some (o, cleanup proj vs b)
  end.
(** PlanGen.cpp 1239-1265: the filters that are not yet part of the plan are put on top of it.  CodeGen.cpp 1161-1208, translateIntern. *)
Definition translateQuery (projection : list nat) (p : plan) : option (oper * list nat) :=
  do (o, b) <- translateAbove (addAll projection []) (rev (filter (fun f => negb (applied f p)) filters)) p;
  Some (o, map (fun x => match bget x b with Some r => r | None => (3 * length nodes)%nat end) projection).
End Pushed.
