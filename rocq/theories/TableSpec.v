(** Specification of binary tables: what a table in memory means and what an iterator over
    it must do, independent of the layouts. *)
From Coq Require Import Sorted.
From Verif Require Export ItrSpec.
Local Open Scope Z_scope.

(** The bytes [bs] are found in memory [m] from offset [p]. *)
Definition contains (m : list Z) (p : Z) (bs : list Z) : Prop :=
  exists pre suf, m = pre ++ bs ++ suf /\ p = Z.of_nat (length pre).

(** Values that a field of [w] bytes can hold and that are read back non-negative. *)
Definition fits (w : nat) (v : Z) : Prop :=
  0 <= v < (if (w =? 5)%nat || (w =? 8)%nat then 2 ^ (8 * Z.of_nat w - 1) else 2 ^ (8 * Z.of_nat w)).
Definition is_width (w : nat) : Prop := w = 1%nat \/ w = 2%nat \/ w = 4%nat \/ w = 5%nat \/ w = 8%nat.

(** Strict lexicographic order on pairs. *)
Definition plt (x y : Z * Z) : Prop := fst x < fst y \/ (fst x = fst y /\ snd x < snd y).

(** Each distinct first value with the number of pairs that have it. *)
Definition groups (l : list (Z * Z)) : list (Z * Z) :=
  map (fun a => (a, Z.of_nat (length (filter (fun e => fst e =? a) l))))
      (nodup Z.eq_dec (map fst l)).

Definition int64 (v : Z) : Prop := 0 <= v < 2 ^ 63.

(** Cursor over the groups of a table (second column ignored).  In a state described by
    (c, m, l) the cursor has l left to deliver; c is the group it stands on if the last
    call was next (hasNext may have been called since); m is what was left when mark was
    called.  [gcursor_sim k bk S]: S is an invariant that all calls respect:
    - hasNext tells whether l is empty and changes nothing, and next delivers the first group
      of l;
    - getCount gives the size of the current group and changes nothing;
    - moveto(c1, _) skips the groups before c1, and delivers the current one again if it is
      not before c1 (when [bk] is false: only moves beyond the current group, with no second
      value, are allowed);
    - reset returns to what was left at the mark. *)
Definition gcursor_sim (k : Z) (bk : bool)
  (S : option (Z * Z) -> option (list (Z * Z)) -> list (Z * Z) -> pitr -> Prop) : Prop :=
  forall c m l o, S c m l o ->
  (hasNext o = Some (nonempty l, o) /\
     match l with
     | [] => True
     | x :: t => exists o2, next o = Some o2 /\ key o2 = k /\ value1 o2 = fst x /\ S (Some x) m t o2
     end) /\
  (exists n, getCount o = Some (n, o) /\ forall x, c = Some x -> n = snd x) /\
  (forall x c1 c2, c = Some x -> int64 c1 -> (bk = true \/ (fst x < c1 /\ c2 <= 0)) ->
     exists o1, moveto o c1 c2 = Some o1 /\
       S None m (filter (fun g => c1 <=? fst g) (x :: l)) o1) /\
  (exists o1, mark o = Some o1 /\ S c (Some l) l o1) /\
  (forall l' i, m = Some l' -> exists o1, reset o i = Some o1 /\ S None m l' o1).

Definition GCursor (k : Z) (bk : bool) (l : list (Z * Z)) (o : pitr) : Prop :=
  exists S, gcursor_sim k bk S /\ S None None l o.

(** Cursor over the pairs of a table: as above, for pairs.  moveto(c1,c2) skips the pairs
    before (c1,c2).  Ignoring the second column after next leaves the groups after the
    current first value. *)
Definition cursor_sim (k : Z) (bk : bool)
  (S : option (Z * Z) -> option (list (Z * Z)) -> list (Z * Z) -> pitr -> Prop) : Prop :=
  forall c m l o, S c m l o ->
  (hasNext o = Some (nonempty l, o) /\
     match l with
     | [] => True
     | x :: t => exists o2, next o = Some o2 /\ cur o2 = (k, fst x, snd x) /\ S (Some x) m t o2
     end) /\
  getCount o = Some (1, o) /\
  (forall x c1 c2, c = Some x -> int64 c1 -> int64 c2 ->
     exists o1, moveto o c1 c2 = Some o1 /\
       S None m (filter (fun e => negb (pair_lt e c1 c2)) (x :: l)) o1) /\
  (exists o1, mark o = Some o1 /\ S c (Some l) l o1) /\
  (forall l' i, m = Some l' -> exists o1, reset o i = Some o1 /\ S None m l' o1) /\
  (forall x, c = Some x -> exists o1, ignoreSecondColumn o = Some o1 /\
     GCursor k bk (groups (filter (fun e => negb (fst e =? fst x)) l)) o1).

(** A freshly opened cursor over l. *)
Definition Cursor (k : Z) (bk : bool) (l : list (Z * Z)) (o : pitr) : Prop :=
  exists S, cursor_sim k bk S /\ S None None l o.

(** Ignoring the second column right after opening leaves all groups. *)
Definition Ignores (k : Z) (bk : bool) (l : list (Z * Z)) (o : pitr) : Prop :=
  exists o1, ignoreSecondColumn o = Some o1 /\ GCursor k bk (groups l) o1.

(** Ignoring the second column when the cursor stands on its first pair: it stands on the first
    group then, and the other groups are left. *)
Definition IgnoresFirst (k : Z) (bk : bool) (l : list (Z * Z)) (o : pitr) : Prop :=
  l <> [] ->
  exists o1 o2 S g gs, next o = Some o1 /\ ignoreSecondColumn o1 = Some o2 /\
    groups l = g :: gs /\ key o2 = k /\ value1 o2 = fst g /\
    gcursor_sim k bk S /\ S (Some g) None gs o2.

(** A freshly opened table over l. *)
Definition Table (k : Z) (bk : bool) (l : list (Z * Z)) (o : pitr) : Prop :=
  Cursor k bk l o /\ Ignores k bk l o /\ IgnoresFirst k bk l o.

(** The same without moveto and without ignoring the second column half-way. *)
Definition scan_sim (k : Z)
  (S : option (list (Z * Z)) -> list (Z * Z) -> pitr -> Prop) : Prop :=
  forall m l o, S m l o ->
  (hasNext o = Some (nonempty l, o) /\
     match l with
     | [] => True
     | x :: t => exists o2, next o = Some o2 /\ cur o2 = (k, fst x, snd x) /\ S m t o2
     end) /\
  getCount o = Some (1, o) /\
  (exists o1, mark o = Some o1 /\ S (Some l) l o1) /\
  (forall l' i, m = Some l' -> exists o1, reset o i = Some o1 /\ S m l' o1).
Definition Scan (k : Z) (l : list (Z * Z)) (o : pitr) : Prop :=
  exists S, scan_sim k S /\ S None l o.

(** Client code: n rounds of hasNext and next. *)
Fixpoint advance (n : nat) (o : pitr) : option pitr :=
  match n with
  | O => Some o
  | S n' => match hasNext o with
            | Some (true, o1) => match next o1 with Some o2 => advance n' o2 | None => None end
            | _ => None
            end
  end.

(** Client code: all first values with their counts, until hasNext says no. *)
Fixpoint gdrain (fuel : nat) (o : pitr) : option (list (Z * Z)) :=
  match fuel with
  | O => None
  | S f => match hasNext o with
           | Some (true, o1) =>
             match next o1 with
             | Some o2 =>
               match getCount o2 with
               | Some (n, o3) =>
                 match gdrain f o3 with Some t => Some ((value1 o2, n) :: t) | None => None end
               | None => None
               end
             | None => None
             end
           | Some (false, _) => Some []
           | None => None
           end
  end.
