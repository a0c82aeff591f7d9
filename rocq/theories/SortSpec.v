(** What sorting the input of the permutations has to give. *)
From Coq Require Import List ZArith Sorting.Sorted Sorting.Permutation.
Import ListNotations.
From Verif Require Import QueryModel QuerySpec InserterSpec.
Local Open Scope Z_scope.

Notation quad := (Z * Z * Z * Z)%type.

(** A triple as permutation [p] stores it. *)
Definition view (p : Z) (t : triple) : triple :=
  match perm_positions p with Some ord => reorder ord t | None => t end.
(** ... with the count 0. *)
Definition counted (t : triple) : quad := (t, 0).

(** The terms of a triple fit in [w] bits. *)
Definition terms (w : Z) (t : triple) : Prop :=
  let '(a, b, c) := t in 0 <= a < 2 ^ w /\ 0 <= b < 2 ^ w /\ 0 <= c < 2 ^ w.

(** The record that fills the free space, as a number: five bytes 1. *)
Definition filler : Z := 4311810305.

(** Strict lexicographic order with the count as the last number. *)
Definition qlt (x y : quad) : Prop := tlt (fst x) (fst y) \/ (fst x = fst y /\ snd x < snd y).

(** Reading a file of sorted triples. *)
Definition sorted (l : list quad) : Prop := StronglySorted tle (map fst l).

(** [q] are the triples [T] in the order of permutation [p], each as often as in [T], sorted. *)
Definition in_order (p : Z) (T : list triple) (q : list quad) : Prop :=
  sorted q /\ Permutation q (map (fun t => counted (view p t)) T).

(** No permutation of the list follows itself. *)
Fixpoint chain (cur : Z) (perms : list Z) : Prop :=
  match perms with [] => True | p :: t => cur <> p /\ is_perm p /\ chain p t end.
