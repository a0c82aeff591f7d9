(** Specification of iteration with the second column ignored, independent of the iterator
    classes. *)
From Coq Require Import Sorted.
From Verif Require Export ItrSpec.
Local Open Scope Z_scope.

(** Number of rows of l with key k and first value v. *)
Definition count_of (l : list elem) (k v : Z) : Z :=
  Z.of_nat (length (filter (fun x => (fst (fst x) =? k) && (snd (fst x) =? v)) l)).

(** Order on key and first value. *)
Definition group_lt (x y : elem) : Prop :=
  let '(k, a, _) := x in
  let '(k', a', _) := y in
  k < k' \/ (k = k' /\ a < a').

(** [is_tally l g]: g has one entry (key, first value, number of rows) for each distinct key
    and first value of l, in ascending order. *)
Definition is_tally (l g : list elem) : Prop :=
  StronglySorted group_lt g /\
  forall k v n, In (k, v, n) g <-> n = count_of l k v /\ 0 < n.

(** [Tallies g o]: from now on the iterator o delivers exactly the entries of g, in that order:
    hasNext can be called any number of times at each step and answers whether an entry is
    left; next then moves to the next entry: getCount gives the number of rows, and the key
    and the first value stay readable while hasNext is called again. *)
Fixpoint Tallies (g : list elem) (o : pitr) : Prop :=
  forall o', polls o o' ->
  exists o1, hasNext o' = Some (nonempty g, o1) /\
    match g with
    | [] => True
    | (k, v, n) :: t => exists o2, next o1 = Some o2 /\ getCount o2 = Some (n, o2) /\
        (forall o3, polls o2 o3 -> key o3 = k /\ value1 o3 = v) /\ Tallies t o2
    end.

(** The iterator stands on the entry x, and t is to come. *)
Definition Stands (x : elem) (t : list elem) (o : pitr) : Prop :=
  getCount o = Some (snd x, o) /\
  (forall o', polls o o' -> key o' = fst (fst x) /\ value1 o' = snd (fst x)) /\ Tallies t o.

(** As Tallies; next may be called at once, and getCount does not fail. *)
Definition TReady (g : list elem) (o : pitr) : Prop :=
  Tallies g o /\ (exists n, getCount o = Some (n, o)) /\
  match g with
  | [] => True
  | x :: t => exists o2, next o = Some o2 /\ Stands x t o2
  end.

(** [Aggregates l o]: the iterator o delivers the rows l; when the second column is ignored at
    once, or after any number of calls to hasNext, it delivers the tally of l instead. *)
Definition Aggregates (l : list elem) (o : pitr) : Prop :=
  Yields true l o /\
  forall o', polls o o' ->
  exists o1 g, ignoreSecondColumn o' = Some o1 /\ is_tally l g /\ TReady g o1.

(** [AggregatesFirst l o]: when the second column is ignored on the first row, the iterator
    stands on the first entry of the tally of l. *)
Definition AggregatesFirst (l : list elem) (o : pitr) : Prop :=
  forall o', polls o o' ->
  exists o1 o2 o3 x t, hasNext o' = Some (true, o1) /\ next o1 = Some o2 /\
    ignoreSecondColumn o2 = Some o3 /\ is_tally l (x :: t) /\ Stands x t o3.

(** Client code: all entries until hasNext says no. *)
Fixpoint tdrain (fuel : nat) (o : pitr) : option (list elem) :=
  match fuel with
  | O => None
  | S f =>
    match hasNext o with
    | Some (true, o1) =>
      match next o1 with
      | Some o2 =>
        match getCount o2 with
        | Some (n, o3) =>
          match tdrain f o3 with
          | Some l => Some ((key o2, value1 o2, n) :: l) | None => None end
        | None => None
        end
      | None => None
      end
    | Some (false, _) => Some []
    | None => None
    end
  end.
