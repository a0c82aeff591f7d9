(** What a graph pattern asks for. *)
From Verif Require Export OpSpec.
From Verif Require Import KbSpec TsSpec TallySpec TermSpec FullModel PlanModel.
Local Open Scope Z_scope.

(** An assignment of values to variables makes a triple of each pattern. *)
Definition val (s : nat -> Z) (t : term) : Z := match t with Var v => s v | Const c => c end.
Definition instance (s : nat -> Z) (n : node) : Z * Z * Z := (val s (n_s n), val s (n_p n), val s (n_o n)).
(** A solution: all these triples are in the database. *)
Definition solves (U : list (Z * Z * Z)) (ps : list node) (s : nat -> Z) : Prop := forall n, In n ps -> In (instance s n) U.
Definition term_vars (t : term) : list nat := match t with Var v => [v] | Const _ => [] end.
Definition pattern_vars (n : node) : list nat := term_vars (n_s n) ++ term_vars (n_p n) ++ term_vars (n_o n).
Definition vars (ps : list node) : list nat := flat_map pattern_vars ps.
(** [S] lists the solutions, each once; only the variables of the patterns count. *)
Definition solutions (U : list (Z * Z * Z)) (ps : list node) (S : list (nat -> Z)) : Prop :=
  NoDup (map (fun s => map s (vars ps)) S) /\
  forall s, solves U ps s <-> exists s', In s' S /\ agree (vars ps) s' s.
(** How many of them give the values [t] to the variables [xs]. *)
Definition times (S : list (nat -> Z)) (xs : list nat) (t : list Z) : Z :=
  Z.of_nat (length (filter (fun s => if values_dec (map s xs) t then true else false) S)).

(** No variable occurs twice in one pattern. *)
Definition linear (ps : list node) : Prop := Forall (fun n => NoDup (pattern_vars n)) ps.
(** The plan has every pattern once. *)
Definition complete (ps : list node) (p : plan) : Prop := Permutation (relations p) (seq 0 (length ps)).
(** Constants are numbers of terms. *)
Definition constants_ok (ps : list node) : Prop :=
  Forall (fun n => forall k c, slot n k = Const c -> 0 <= c < 2 ^ 63) ps.

(** The database serves scans of the index [idx] over the triples [U]: a run delivers, in the order of the index,
    the rows that have the values [f] in the columns that are bound.  See C73. *)
Definition serves (U : list (Z * Z * Z)) (fuel : nat) (open : nat -> option Z -> option Z -> option Z -> option pitr) (idx : nat) : Prop :=
  forall b1 b2 b3 f, int64_row f ->
  exists L, answers U idx (-1, -1, -1) L /\
    is_run fuel fuel 0 b1 b2 b3 (open idx) (fun _ => no_hints) f = Some (filter (agrees b1 b2 b3 f) L).
(** The database serves aggregated scans of the index [idx]: a run delivers each pair of values that the first two
    columns of these rows have, with the number of rows that have it.  The last column is not bound, and
    the second one only if the first one is.  See C80. *)
Definition serves_counts (U : list (Z * Z * Z)) (fuel : nat) (open : nat -> option Z -> option Z -> option Z -> option pitr) (idx : nat) : Prop :=
  forall b1 b2 f1 f2, int64 f1 -> int64 f2 -> (b2 = true -> b1 = true) ->
  exists L D, answers U idx (-1, -1, -1) L /\
    as_run fuel fuel 0 b1 b2 (open idx) (f1, f2) = Some D /\
    is_tally (filter (agrees b1 b2 false (f1, f2, 0)) L) D.
(** The database serves scans of the index [idx] that skip two columns: a run delivers each value of the first
    column of the rows with the number of rows that have it.  See C81. *)
Definition serves_terms (U : list (Z * Z * Z)) (fuel : nat) (terms : nat -> option pitr) (idx : nat) : Prop :=
  exists L D, answers U idx (-1, -1, -1) L /\ fas_run fuel 0 (terms idx) = Some D /\ counts_of (fun t => fst (fst t)) D L.
(** The indices that a plan scans, those for aggregated scans, and those for scans that
    skip two columns. *)
Fixpoint indices (p : plan) : list nat :=
  match p with
  | IndexScan _ idx _ => [idx]
  | AggregatedIndexScan _ _ _ | FullyAggregatedIndexScan _ _ _ => []
  | NestedLoopJoin l r | MergeJoin _ l r | HashJoin l r | CartProd l r => indices l ++ indices r
  | Optional p => indices p
  end.
Fixpoint aggregated (p : plan) : list nat :=
  match p with
  | IndexScan _ _ _ | FullyAggregatedIndexScan _ _ _ => []
  | AggregatedIndexScan _ idx _ => [idx]
  | NestedLoopJoin l r | MergeJoin _ l r | HashJoin l r | CartProd l r => aggregated l ++ aggregated r
  | Optional p => aggregated p
  end.
Fixpoint fully (p : plan) : list nat :=
  match p with
  | IndexScan _ _ _ | AggregatedIndexScan _ _ _ => []
  | FullyAggregatedIndexScan _ idx _ => [idx]
  | NestedLoopJoin l r | MergeJoin _ l r | HashJoin l r | CartProd l r => fully l ++ fully r
  | Optional p => fully p
  end.
