(** What the tables of a permutation have to hold. *)
From Coq Require Import ZArith List Sorting.Sorted.
Import ListNotations.
Local Open Scope Z_scope.

Notation triple := (Z * Z * Z)%type.

(** Lexicographic order of triples. *)
Definition tle (x y : triple) : Prop :=
  let '(a, b, c) := x in let '(a', b', c') := y in
  a < a' \/ a = a' /\ (b < b' \/ b = b' /\ c <= c').
Definition tlt (x y : triple) : Prop :=
  let '(a, b, c) := x in let '(a', b', c') := y in
  a < a' \/ a = a' /\ (b < b' \/ b = b' /\ c < c').

Definition triple_dec : forall x y : triple, {x = y} + {x <> y}.
Proof. repeat decide equality. Defined.

(** The triples of an input that may repeat triples. *)
Definition distinct (l : list triple) : list triple := nodup triple_dec l.

(** The first terms, each once, and the pairs that follow a first term. *)
Definition keys (l : list triple) : list Z := nodup Z.eq_dec (map (fun t => fst (fst t)) l).
Definition table_of (k : Z) (l : list triple) : list (Z * Z) :=
  map (fun t => (snd (fst t), snd t)) (filter (fun t => fst (fst t) =? k) l).
(** The different first and second terms. *)
Definition prefixes (l : list triple) : list (Z * Z) :=
  nodup (ltac:(repeat decide equality) : forall x y : Z * Z, {x = y} + {x <> y}) (map fst l).
