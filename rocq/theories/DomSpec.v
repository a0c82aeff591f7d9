(** What a domain description promises. *)
From Coq Require Import ZArith List.
Local Open Scope Z_scope.

(** An unsigned 64-bit number. *)
Definition uint64 (v : Z) : Prop := 0 <= v < 2 ^ 64.
(** [r] is the least number from [v] on for which [P] holds. *)
Definition least_from (P : Z -> Prop) (v r : Z) : Prop :=
  v <= r /\ P r /\ forall w, v <= w -> P w -> r <= w.
