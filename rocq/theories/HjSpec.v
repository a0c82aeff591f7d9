(** Specification of the join of several operators: the natural joins one after the other. *)
From Coq Require Import ZArith List.
From Verif Require Import TupleSpec.
Import ListNotations.
Local Open Scope Z_scope.

(** The variables and the rows of the join of ([s], [l]) with the tables [ts]. *)
Fixpoint join_all (s : list Z) (l : list (list Z)) (ts : list (list Z * list (list Z))) : list Z * list (list Z) :=
  match ts with
  | [] => (s, l)
  | (s2, l2) :: ts => join_all (join_sig s s2) (natural_join s s2 l l2) ts
  end.
(** A table with distinct variables and a value for each in every row. *)
Definition well (t : list Z * list (list Z)) : Prop := NoDup (fst t) /\ Forall (fun r => length r = length (fst t)) (snd t).
(** Each table shares one or two variables with those before it. *)
Fixpoint linked (s : list Z) (ts : list (list Z * list (list Z))) : Prop :=
  match ts with
  | [] => True
  | (s2, _) :: ts => (1 <= length (common s2 s) <= 2)%nat /\ linked (join_sig s s2) ts
  end.
