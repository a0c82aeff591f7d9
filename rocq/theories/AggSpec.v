(** What an aggregated scan promises: each combination of the first two columns once, with the
    number of rows that have it. *)
From Verif Require Export TallySpec.
Local Open Scope Z_scope.

(** The iterator delivers the entries of g (key, first value, number of rows) to a client that calls
    hasNext, next and getCount in turn. *)
Fixpoint Counts (g : list elem) (o : pitr) : Prop :=
  exists o1, hasNext o = Some (nonempty g, o1) /\
    match g with
    | [] => True
    | (k, v, n) :: t => exists o2 o3, next o1 = Some o2 /\ key o2 = k /\ value1 o2 = v /\
        getCount o2 = Some (n, o3) /\ key o3 = k /\ value1 o3 = v /\ Counts t o3
    end.
(** It does so for the tally of l when the second column is ignored first. *)
Definition Tallied (l : list elem) (o : pitr) : Prop :=
  exists o1 g, ignoreSecondColumn o = Some o1 /\ is_tally l g /\ Counts g o1.
