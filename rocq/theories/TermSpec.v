(** Specification of lists of terms with counts. *)
From Coq Require Import Sorted.
From Verif Require Import ItrModel ItrSpec.
Local Open Scope Z_scope.

(** [counts o o']: o' is o after any number of calls to getCount. *)
Inductive counts (o : pitr) : pitr -> Prop :=
| counts_refl : counts o o
| counts_step o1 c o2 : counts o o1 -> getCount o1 = Some (c, o2) -> counts o o2.

(** From now on [o] delivers the keys of [l], in that order: hasNext can be called any number of times
    and answers whether a key is left, without changing the current key; next then moves to it;
    getCount can then be called any number of times and returns its count. *)
Fixpoint Terms (l : list (Z * Z)) (o : pitr) : Prop :=
  forall o', polls o o' ->
  exists o1, hasNext o' = Some (nonempty l, o1) /\ key o1 = key o' /\
    match l with
    | [] => True
    | (k, c) :: t => exists o2, next o1 = Some o2 /\
        forall o3, counts o2 o3 -> key o3 = k /\ (exists o4, getCount o3 = Some (c, o4)) /\ Terms t o3
    end.

(** A list of terms: the keys increase, and every count is positive. *)
Definition term_list (l : list (Z * Z)) : Prop :=
  StronglySorted (fun a b => fst a < fst b) l /\ Forall (fun x => 0 < snd x) l.
(** The count of a key; 0 if it is not in the list. *)
Fixpoint cnt (k : Z) (l : list (Z * Z)) : Z :=
  match l with [] => 0 | (k', c) :: t => (if k' =? k then c else 0) + cnt k t end.
(** The keys of triples with the number of triples of each; [kf] is the key of a triple. *)
Definition counts_of (kf : elem -> Z) (l : list (Z * Z)) (ts : list elem) : Prop :=
  term_list l /\ forall k, cnt k l = Z.of_nat (length (filter (fun t => kf t =? k) ts)).
(** The keys of [M] with the counts of [D] taken off; keys with nothing left are dropped. *)
Definition taken_off (M D : list (Z * Z)) : list (Z * Z) :=
  flat_map (fun x => if snd x - cnt (fst x) D =? 0 then [] else [(fst x, snd x - cnt (fst x) D)]) M.
(** Reading a list of terms: hasNext, next, getCurrentKey and getCount, at most [n] times. *)
Fixpoint read_terms (n : nat) (o : pitr) : option (list (Z * Z)) :=
  match n with
  | O => None
  | S n =>
    do (b, o1) <- hasNext o;
    if b then do o2 <- next o1; do (c, o3) <- getCount o2; do l <- read_terms n o3; Some ((key o2, c) :: l)
    else Some []
  end.
