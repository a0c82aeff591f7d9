(** What a database with updates has to answer. *)
From Coq Require Import ZArith List Sorting.Sorted.
From Verif Require Import QueryModel QuerySpec InserterModel InserterSpec InserterProps SortModel SortSpec ItrSpec DiffProps UpdKbModel KbSpec.
Import ListNotations.
Local Open Scope Z_scope.

(** The answers to the pattern (s, p, o) over the set of triples [S] in permutation [idx]: each
    matching triple once, its terms in the order of the permutation, in increasing order. *)
Definition answers_of (S : triple -> Prop) (idx : nat) (pat : triple) (l : list triple) : Prop :=
  StronglySorted tlt l /\
  forall x, In x l <-> exists t, S t /\ matches pat t /\ view (Z.of_nat idx) t = x.

(** The history [h] (true: triples removed, false: triples added) was written as the updates
    [us]; the mappings of the files go on for at least 8 bytes. *)
Definition history_written (h : list (bool * list triple)) (us : list upd) : Prop :=
  Forall2 (fun u x => up_del x = fst u /\ written (snd u) (up_ix x) /\ forall i, 8 <= Z.of_nat (length (up_pad x i))) h us.

(** Patterns for which removals can be applied in a permutation that can be served: SPO, OPS and
    POS; in the others, those with a key if no table is left out. *)
Definition removable (inputs : nat -> option (cfg * list quad)) (idx : nat) (pat : triple) : Prop :=
  (idx < 3)%nat \/ exists g q, inputs idx = Some (g, q) /\ g_canSkip g = false /\ 0 <= fst (fst (view (Z.of_nat idx) pat)).
