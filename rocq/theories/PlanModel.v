(** From a graph pattern to operators: rdf3x/src/cts/PlanGen.cpp builds the plans and
    rdf3x/src/cts/CodeGen.cpp turns a plan into a tree of operators.

    Modelled: queries that consist of triple patterns (no OPTIONAL but for the flag, UNION, FILTER, BIND,
    VALUES, MINUS and subqueries).  The context of CodeGen is empty for them.  Costs and cardinalities are left out.
    Merge hints and domain descriptions are left out: see C73 for what they do to index scans and
    C56_domains for hash joins. *)
From Verif Require Import FullModel.
From Verif Require Export OpModel OpHashModel OpMergeModel SelModel TsModel TsKbModel AggModel SortSpec.
Local Open Scope Z_scope.

(** rdf3x/include/cts/infra/QueryGraph.hpp 29-50, QueryGraph::Node: the triple pattern; a slot is a
    constant (constSubject and subject, and so on) or a variable. *)
Inductive term := Var (v : nat) | Const (c : Z).
Record node := mkNode { n_s : term; n_p : term; n_o : term }.
Definition slot (n : node) (k : nat) : term := match k with O => n_s n | 1%nat => n_p n | _ => n_o n end.
(** rdf3x/include/cts/plangen/Plan.hpp 19-61.  A scan has the order of its index (0 to 5 are SPO, OPS, POS,
    SOP, OSP and PSO as in include/trident/kb/consts.h), whether it is one of the No_Order variants, and the
    number of its pattern.  [Optional] is the plan with the flag optional set. *)
Inductive plan :=
| IndexScan (unordered : bool) (idx : nat) (i : nat)
| AggregatedIndexScan (unordered : bool) (idx : nat) (i : nat)
| FullyAggregatedIndexScan (unordered : bool) (idx : nat) (i : nat)
| NestedLoopJoin (l r : plan)
| MergeJoin (on : nat) (l r : plan)
| HashJoin (l r : plan)
| CartProd (l r : plan)
| Optional (p : plan).
Definition is_optional (p : plan) : bool := match p with Optional _ => true | _ => false end.

(** IndexScan.cpp 315-404, create: the slots of the three columns of an order (TridentLayer.cpp 831-864 maps
    an order and its No_Order variant to the same permutation). *)
Definition columns (idx : nat) : nat * nat * nat :=
  match idx with
  | 0 => (0, 1, 2) | 1 => (2, 1, 0) | 2 => (1, 2, 0) | 3 => (0, 2, 1) | 4 => (2, 0, 1) | _ => (1, 0, 2)
  end%nat.

(** ** Sets and maps: std::set<unsigned> and std::map<unsigned, Register*> as sorted lists. *)
Definition mem (x : nat) (s : list nat) : bool := existsb (Nat.eqb x) s.
Fixpoint add (x : nat) (s : list nat) : list nat :=
  match s with
  | [] => [x]
  | y :: s' => if (x <? y)%nat then x :: s else if (x =? y)%nat then s else y :: add x s'
  end.
Definition addAll (xs s : list nat) : list nat := fold_left (fun s x => add x s) xs s.
Definition bindings := list (nat * nat).
Fixpoint bget (v : nat) (b : bindings) : option nat :=
  match b with [] => None | (x, r) :: b' => if (x =? v)%nat then Some r else bget v b' end.
Fixpoint bput (v r : nat) (b : bindings) : bindings :=
  match b with
  | [] => [(v, r)]
  | (x, q) :: b' => if (v <? x)%nat then (v, r) :: b else if (v =? x)%nat then (v, r) :: b' else (x, q) :: bput v r b'
  end.

(** ** Operators that CodeGen puts together *)
(** IndexScan (C73) as an operator; [open] is TridentScan::first up to hasNext.  State: countHint and the scan
    that first has begun.  Simplification: the registers of constants are written when the plan is
    translated (CodeGen.cpp 58-60) and by nobody afterwards, so that the values they have in first are
    part of the operator. *)
Definition no_hints : hint := (mkHcol None [] None, mkHcol None [] None, mkHcol None [] None).
Definition sc_write (regs3 : nat * nat * nat) (b1 b2 b3 : bool) (r : Z * Z * Z) (g : regs) : regs :=
  let '(r1, r2, r3) := regs3 in
  let '(v1, v2, v3) := r in
  let g := if b1 then g else set_reg r1 v1 g in
  let g := if b2 then g else set_reg r2 v2 g in
  if b3 then g else set_reg r3 v3 g.
Section Scan.
Variables (fuel : nat) (regs3 : nat * nat * nat) (b1 b2 b3 : bool) (f : Z * Z * Z) (open : option Z -> option Z -> option Z -> option pitr).
Definition sc_result (r : option (Z * Z * Z)) (s : is_st) (g : regs) : option (Z * regs * (Z * option is_st)) :=
  let st := (ts_count (is_ts s), Some s) in
  match r with Some row => Some (1, sc_write regs3 b1 b2 b3 row g, st) | None => Some (0, g, st) end.
Definition sc_first (st : Z * option is_st) (g : regs) : option (Z * regs * (Z * option is_st)) :=
  do (r, s) <- is_first fuel (fst st) b1 b2 b3 open no_hints f; sc_result r s g.
Definition sc_next (st : Z * option is_st) (g : regs) : option (Z * regs * (Z * option is_st)) :=
  do s <- snd st; do (r, s') <- is_next fuel b1 b2 b3 no_hints s; sc_result r s' g.
Definition index_scan : oper := obj sc_first sc_next (0, None).
End Scan.
(** AggregatedIndexScan (C80) as an operator, likewise; what it returns is the number of rows. *)
Definition ac_write (regs2 : nat * nat) (b1 b2 : bool) (a b : Z) (g : regs) : regs :=
  let '(r1, r2) := regs2 in
  let g := if b1 then g else set_reg r1 a g in
  if b2 then g else set_reg r2 b g.
Section Aggregated.
Variables (fuel : nat) (regs2 : nat * nat) (b1 b2 : bool) (f : Z * Z) (open : option Z -> option Z -> option Z -> option pitr).
Definition ac_result (r : option elem) (s : as_st) (g : regs) : option (Z * regs * (Z * option as_st)) :=
  let st := (ts_count (as_ts s), Some s) in
  match r with Some (a, b, c) => Some (c, ac_write regs2 b1 b2 a b g, st) | None => Some (0, g, st) end.
Definition ac_first (st : Z * option as_st) (g : regs) : option (Z * regs * (Z * option as_st)) :=
  do (r, s) <- as_first fuel (fst st) b1 b2 open (own_hint b1 b2 f) f; ac_result r s g.
Definition ac_next (st : Z * option as_st) (g : regs) : option (Z * regs * (Z * option as_st)) :=
  do s <- snd st; do (r, s') <- as_next fuel b1 b2 (own_hint b1 b2 f) s; ac_result r s' g.
Definition aggregated_scan : oper := obj ac_first ac_next (0, None).
End Aggregated.
(** FullyAggregatedIndexScan::Scan (C81) as an operator, likewise: it has one register. *)
Section Fully.
Variables (r1 : nat) (terms : option pitr).
Definition fc_result (r : option (Z * Z) * ts_st) (g : regs) : option (Z * regs * (Z * option ts_st)) :=
  let st := (ts_count (snd r), Some (snd r)) in
  match fst r with Some (k, c) => Some (c, set_reg r1 k g, st) | None => Some (0, g, st) end.
Definition fc_first (st : Z * option ts_st) (g : regs) : option (Z * regs * (Z * option ts_st)) :=
  do r <- fas_first (fst st) terms; fc_result r g.
Definition fc_next (st : Z * option ts_st) (g : regs) : option (Z * regs * (Z * option ts_st)) :=
  do s <- snd st; do r <- fas_next s; fc_result r g.
Definition fully_scan : oper := obj fc_first fc_next (0, None).
End Fully.

(** ** CodeGen.cpp *)
Section Gen.
(** The dictionary (for Selection), the memory of a hash join, the database (the iterators of scans, and the
    lists of terms of the permutations) and the patterns. *)
Variables (w : world) (fuel : nat) (memory : Z) (open : nat -> option Z -> option Z -> option Z -> option pitr) (terms : nat -> option pitr) (nodes : list node).
(** CodeGen.cpp 1078-1092, allocateRegisters: pattern i has the registers from 3 i on. *)
Definition reg_of (i k : nat) : nat := (3 * i + k)%nat.
Definition node_of (i : nat) : node := nth i nodes (mkNode (Const 0) (Const 0) (Const 0)).
(** 53-75, resolveScanVariable, for a variable: the register is remembered if the variable is wanted. *)
Definition resolve (proj : list nat) (i k : nat) (b : bindings) : bindings :=
  match slot (node_of i) k with
  | Var v => if mem v proj then bput v (reg_of i k) b else b
  | Const _ => b
  end.
Definition bound (i k : nat) : bool := match slot (node_of i) k with Const _ => true | Var _ => false end.
Definition const (i k : nat) : Z := match slot (node_of i) k with Const c => c | Var _ => 0 end.
(** 90-112, translateIndexScan. *)
Definition translateIndexScan (proj : list nat) (idx i : nat) : oper * bindings :=
  let '(k1, k2, k3) := columns idx in
  (index_scan fuel (reg_of i k1, reg_of i k2, reg_of i k3) (bound i k1) (bound i k2) (bound i k3)
     (const i k1, const i k2, const i k3) (open idx),
   resolve proj i 2 (resolve proj i 1 (resolve proj i 0 []))).
(** 113-134, translateAggregatedIndexScan, with rdf3x/src/rts/AggregatedIndexScan.cpp 221-283, create.  The
    slot of the last column is not resolved (CodeGen.cpp 63-65) if the order is not one of the No_Order variants; for these
    the flag is not set, and the assertion in create that there is no register fails unless the program
    is compiled, as it is by default, without assertions. *)
Definition translateAggregatedIndexScan (u : bool) (proj : list nat) (idx i : nat) : oper * bindings :=
  let '(k1, k2, k3) := columns idx in
  let res := fun k b => if negb u && (k =? k3)%nat && negb (bound i k) then b else resolve proj i k b in
  (aggregated_scan fuel (reg_of i k1, reg_of i k2) (bound i k1) (bound i k2) (const i k1, const i k2) (open idx),
   res 2%nat (res 1%nat (res 0%nat []))).
(** CodeGen.cpp 135-160, translateFullyAggregatedIndexScan, with rdf3x/src/rts/FullyAggregatedIndexScan.cpp
    165-222, create: only the slot of the first column is resolved.  [None], so that there is no
    answer: for a No_Order variant the flag is set for each slot, and the operator writes to a register that is null; if the first
    column is a constant, ScanPrefix1 throws (C80_constant_and_two_unused_refuted). *)
Definition translateFullyAggregatedIndexScan (u : bool) (proj : list nat) (idx i : nat) : option (oper * bindings) :=
  let '(k1, k2, k3) := columns idx in
  let res := fun k b => if negb (k =? k1)%nat && negb (bound i k) then b else resolve proj i k b in
  if u || bound i k1 then None
  else Some (fully_scan (reg_of i k1) (terms idx), res 2%nat (res 1%nat (res 0%nat []))).
(** CodeGen.cpp 162-222, collectVariables. *)
Definition slot_vars (i k : nat) : list nat := match slot (node_of i) k with Var v => [v] | Const _ => [] end.
Fixpoint collectVariables (p : plan) (s : list nat) : list nat :=
  match p with
  | IndexScan _ _ i | AggregatedIndexScan _ _ i | FullyAggregatedIndexScan _ _ i => addAll (slot_vars i 2) (addAll (slot_vars i 1) (addAll (slot_vars i 0) s))
  | NestedLoopJoin l r | MergeJoin _ l r | HashJoin l r | CartProd l r => collectVariables r (collectVariables l s)
  | Optional p => collectVariables p s
  end.
(** 250-272, getJoinVariables. *)
Definition getJoinVariables (l r : plan) : list nat :=
  let lv := collectVariables l [] in
  let rv := collectVariables r [] in
  if (length lv <? length rv)%nat then addAll (filter (fun v => mem v rv) lv) [] else addAll (filter (fun v => mem v lv) rv) [].
(** 275-284, mergeBindings. *)
Definition mergeBindings (proj : list nat) (lb rb : bindings) : bindings :=
  let b := fold_left (fun b e => if mem (fst e) proj then bput (fst e) (snd e) b else b) lb [] in
  fold_left (fun b e => if mem (fst e) proj && match bget (fst e) b with Some _ => false | None => true end then bput (fst e) (snd e) b else b) rb b.
(** 286-314, addAdditionalSelections.  [None] in place of a register that is missing. *)
Fixpoint pairs_of (vs : list nat) (lb rb : bindings) : option (list (nat * nat)) :=
  match vs with
  | [] => Some []
  | v :: vs' => do a <- bget v lb; do b <- bget v rb; do l <- pairs_of vs' lb rb; Some ((a, b) :: l)
  end.
Definition equal_of (p : nat * nat) : expr := EEqual (EVariable (fst p)) (EVariable (snd p)).
Definition addAdditionalSelections (input : oper) (vs : list nat) (lb rb : bindings) (joinedOn : option nat) : option oper :=
  do ps <- pairs_of (filter (fun v => match joinedOn with Some on => negb (v =? on)%nat | None => true end) vs) lb rb;
  match ps with
  | [] => Some input
  | p :: ps => Some (selection w fuel (fold_left (fun e p => EAnd e (equal_of p)) ps (equal_of p)) input)
  end.
(** 349-357, 384-392, 423-428: the registers of the other variables. *)
Definition tail_of (b : bindings) (on : nat) : list nat := map snd (filter (fun e => negb (fst e =? on)%nat) b).
(** 995-1070, translatePlan, with 316-437: the operators of the joins.  [None]: a failed assertion, or a
    variable without register. *)
Fixpoint translatePlan (proj : list nat) (p : plan) : option (oper * bindings) :=
  match p with
  | IndexScan _ idx i => Some (translateIndexScan proj idx i)
  | AggregatedIndexScan u idx i => Some (translateAggregatedIndexScan u proj idx i)
  | FullyAggregatedIndexScan u idx i => translateFullyAggregatedIndexScan u proj idx i
  | NestedLoopJoin l r =>
    let vs := getJoinVariables l r in
    do (lt, lb) <- translatePlan (addAll vs proj) l;
    do (rt, rb) <- translatePlan (addAll vs proj) r;
    do o <- addAdditionalSelections (nested_loop_join fuel lt rt 0) vs lb rb None;
    Some (o, mergeBindings proj lb rb)
  | MergeJoin on l r =>
    let vs := getJoinVariables l r in
    if negb (mem on vs) then None else
    do (lt, lb) <- translatePlan (addAll vs proj) l;
    do (rt, rb) <- translatePlan (addAll vs proj) r;
    do lr <- bget on lb; do rr <- bget on rb;
    do o <- addAdditionalSelections (merge_join fuel lr rr (tail_of lb on) (tail_of rb on) (is_optional l) (is_optional r) lt rt) vs lb rb (Some on);
    Some (o, mergeBindings proj lb rb)
  | HashJoin l r =>
    let vs := getJoinVariables l r in
    match vs with
    | [] => None
    | on :: _ =>
      do (lt, lb) <- translatePlan (addAll vs proj) l;
      do (rt, rb) <- translatePlan (addAll vs proj) r;
      do lr <- bget on lb; do rr <- bget on rb;
      do o <- addAdditionalSelections (hash_join fuel memory (fun _ => true) lr rr (tail_of lb on) (tail_of rb on) (is_optional l) (is_optional r) lt rt) vs lb rb (Some on);
      Some (o, mergeBindings proj lb rb)
    end
  | CartProd l r =>
    do (lt, lb) <- translatePlan proj l;
    do (rt, rb) <- translatePlan proj r;
    Some (cart_prod fuel (map snd lb) (map snd rb) (is_optional l) (is_optional r) lt rt, mergeBindings proj lb rb)
  | Optional p => translatePlan proj p
  end.
(** 1161-1208, translateIntern without ORDER BY: the tree and the registers of the projected variables.  A
    variable that does not occur gets the last register, which nobody writes (1217). *)
Definition translateIntern (projection : list nat) (p : plan) : option (oper * list nat) :=
  do (o, b) <- translatePlan (addAll projection []) p;
  Some (o, map (fun x => match bget x b with Some r => r | None => (3 * length nodes)%nat end) projection).

(** ** PlanGen.cpp *)
(** The variable of a column, if it is one. *)
Definition slot_var (i k : nat) : option nat := match slot (node_of i) k with Var v => Some v | Const _ => None end.
(** 269-311, buildIndexScan; 313-360, buildAggregatedIndexScan; 362-403, buildFullyAggregatedIndexScan; 1125-1216, the joins: the variable by which the rows of a plan are ordered. *)
Fixpoint ordering (p : plan) : option nat :=
  match p with
  | IndexScan true _ _ => None
  | IndexScan false idx i =>
    let '(k1, k2, k3) := columns idx in
    match slot_var i k1 with
    | Some v => Some v
    | None => match slot_var i k2 with Some v => Some v | None => slot_var i k3 end
    end
  | AggregatedIndexScan true _ _ => None
  | AggregatedIndexScan false idx i =>
    let '(k1, k2, k3) := columns idx in
    match slot_var i k1 with Some v => Some v | None => slot_var i k2 end
  | FullyAggregatedIndexScan true _ _ => None
  | FullyAggregatedIndexScan false idx i => let '(k1, _, _) := columns idx in slot_var i k1
  | NestedLoopJoin l _ => ordering l
  | MergeJoin _ l _ => ordering l
  | HashJoin _ _ | CartProd _ _ => None
  | Optional p => ordering p
  end.
(** The patterns of a plan: Problem::relations. *)
Fixpoint relations (p : plan) : list nat :=
  match p with
  | IndexScan _ _ i | AggregatedIndexScan _ _ i | FullyAggregatedIndexScan _ _ i => [i]
  | NestedLoopJoin l r | MergeJoin _ l r | HashJoin l r | CartProd l r => relations l ++ relations r
  | Optional p => relations p
  end.
(** rdf3x/src/cts/QueryGraph.cpp 271-274, constructEdges: patterns with a common variable are connected. *)
Definition node_vars (i : nat) : list nat := slot_vars i 0 ++ slot_vars i 1 ++ slot_vars i 2.
Definition edge (i j : nat) : bool := existsb (fun v => mem v (node_vars j)) (node_vars i).
Definition connected (l r : plan) : bool := existsb (fun i => existsb (edge i) (relations r)) (relations l).
Definition overlaps (l r : plan) : bool := existsb (fun i => mem i (relations r)) (relations l).
(** The plans that PlanGen can build for patterns, whichever it keeps for their costs.
    557-607, buildScan: an aggregated scan skips the last column if it has a variable that is neither projected
    nor used in another pattern, and has no constant after a variable (PlanGen.cpp 317-320); one that skips two columns if both have such variables, and the first
    column has a variable (for a constant there: C80_constant_and_two_unused_refuted); 1128-1175: plans of two sets of patterns that do not overlap and are connected
    are combined by a merge join, if both are ordered by the same variable, and by hash joins (the
    estimated selectivity of a join of two patterns is not negative, so that 1176-1187, a nested loop
    join, is not built); 1190-1216: if no joins are found among the sets of a size, a cartesian product.
    [No join was found] is stated for the two plans that are combined. *)
Inductive Planned (projection : list nat) : plan -> Prop :=
| P_scan u idx i : (i < length nodes)%nat -> (idx < 6)%nat -> Planned projection (IndexScan u idx i)
| P_aggregated u idx i k1 k2 k3 v : (i < length nodes)%nat -> (idx < 6)%nat -> columns idx = (k1, k2, k3) ->
    slot (node_of i) k3 = Var v -> ~ In v projection -> (forall j, j <> i -> ~ In v (node_vars j)) ->
    (bound i k2 = true -> bound i k1 = true) -> Planned projection (AggregatedIndexScan u idx i)
| P_fully idx i k1 k2 k3 v1 v2 v3 : (i < length nodes)%nat -> (idx < 6)%nat -> columns idx = (k1, k2, k3) ->
    slot (node_of i) k1 = Var v1 -> slot (node_of i) k2 = Var v2 -> slot (node_of i) k3 = Var v3 ->
    ~ In v2 projection -> (forall j, j <> i -> ~ In v2 (node_vars j)) -> ~ In v3 projection -> (forall j, j <> i -> ~ In v3 (node_vars j)) ->
    Planned projection (FullyAggregatedIndexScan false idx i)
| P_merge on l r : Planned projection l -> Planned projection r -> overlaps l r = false -> connected l r = true ->
    ordering l = Some on -> ordering r = Some on -> Planned projection (MergeJoin on l r)
| P_hash l r : Planned projection l -> Planned projection r -> overlaps l r = false -> connected l r = true -> Planned projection (HashJoin l r)
| P_cart l r : Planned projection l -> Planned projection r -> overlaps l r = false -> connected l r = false -> Planned projection (CartProd l r).
End Gen.
