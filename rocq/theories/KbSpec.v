(** What a loaded database has to answer. *)
From Coq Require Import ZArith List Sorting.Sorted.
From Verif Require Import QueryModel QuerySpec InserterModel InserterSpec InserterProps SortModel SortSpec ItrSpec.
Import ListNotations.
Local Open Scope Z_scope.

(** The answers to the pattern (s, p, o) over the triples [U] in permutation [idx]: each matching
    triple once, its terms in the order of the permutation, in increasing order. *)
Definition answers (U : list triple) (idx : nat) (pat : triple) (l : list triple) : Prop :=
  StronglySorted tlt l /\
  forall x, In x l <-> exists t, In t U /\ matches pat t /\ view (Z.of_nat idx) t = x.

(** The bound terms of a pattern are the first ones in the order of permutation [idx]. *)
Definition leading (idx : nat) (pat : triple) : Prop :=
  let '(a, b, c) := view (Z.of_nat idx) pat in (a < 0 -> b < 0) /\ (b < 0 -> c < 0).

(** The permutations and their inputs: SPO is loaded; SOP, OSP and PSO only with SPO, OPS and POS;
    each with the triples [U] in its order. *)
Definition prepared (U : list triple) (inputs : nat -> option (cfg * list quad)) : Prop :=
  inputs 0%nat <> None /\ (forall i, (3 <= i < 6)%nat -> inputs i <> None -> inputs (i - 3)%nat <> None) /\
  forall i g q, (i < 6)%nat -> inputs i = Some (g, q) ->
    g_perm g = Z.of_nat i /\ in_order (Z.of_nat i) U q /\ options_ok g (distinct (map fst q)) /\
    (forall f, g_fixed g = Some f -> isAggregated f = false).
