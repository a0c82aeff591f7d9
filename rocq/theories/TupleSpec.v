(** Specification of the operations on tables of tuples. *)
From Coq Require Import ZArith List Bool Sorting.Sorted Sorting.Permutation.
Import ListNotations.
Local Open Scope Z_scope.

(** The value of variable [x] in a row with signature [sig]. *)
Fixpoint value (sig : list Z) (r : list Z) (x : Z) : option Z :=
  match sig, r with
  | v :: sig, a :: r => if v =? x then Some a else value sig r x
  | _, _ => None
  end.
(** Two rows agree on the variables that both have. *)
Definition compatible (s1 s2 : list Z) (r1 r2 : list Z) : bool :=
  forallb (fun x => match value s1 r1 x, value s2 r2 x with Some a, Some b => a =? b | _, _ => true end) s1.
(** The variables that only the second table has, and their values. *)
Definition new_vars (s1 s2 : list Z) : list Z := filter (fun x => negb (existsb (Z.eqb x) s1)) s2.
Definition extra (s1 s2 : list Z) (r2 : list Z) : list Z :=
  map (fun x => match value s2 r2 x with Some a => a | None => 0 end) (new_vars s1 s2).
Definition natural_join (s1 s2 : list Z) (l1 l2 : list (list Z)) : list (list Z) :=
  flat_map (fun r1 => map (fun r2 => r1 ++ extra s1 s2 r2) (filter (compatible s1 s2 r1) l2)) l1.

(** The variables of the result of a join. *)
Definition join_sig (s1 s2 : list Z) : list Z := s1 ++ new_vars s1 s2.
Definition empty_of {A} (l : list A) : bool := match l with [] => true | _ => false end.

(** The lexicographic order of rows. *)
Fixpoint row_le (r1 r2 : list Z) : Prop :=
  match r1, r2 with
  | a :: r1, b :: r2 => a < b \/ (a = b /\ row_le r1 r2)
  | [], _ => True
  | _ :: _, [] => False
  end.
Definition sorted_rows (l : list (list Z)) : Prop := StronglySorted row_le l.
(** Sorted by the variables [vars]. *)
Definition values (sig : list Z) (vars : list Z) (r : list Z) : list Z := map (fun x => match value sig r x with Some a => a | None => 0 end) vars.
Definition sorted_on (sig : list Z) (vars : list Z) (l : list (list Z)) : Prop :=
  StronglySorted (fun r1 r2 => row_le (values sig vars r1) (values sig vars r2)) l.
(** The variables that both have. *)
Definition common (s1 s2 : list Z) : list Z := filter (fun x => existsb (Z.eqb x) s2) s1.

(** How often a row occurs. *)
Definition count (r : list Z) (l : list (list Z)) : nat := count_occ (list_eq_dec Z.eq_dec) l r.

(** [gs] is the division of rows into the longest groups of neighbours with the same first two
    columns. *)
Definition key2 (r : list Z) : Z * Z := (nth 0 r 0, nth 1 r 0).
Inductive grouped : list (list (list Z)) -> list (list Z) -> Prop :=
| grouped_nil : grouped [] []
| grouped_cons : forall r g gs l, Forall (fun x => key2 x = key2 r) g -> grouped gs l ->
    match l with x :: _ => key2 x <> key2 r | [] => True end -> grouped ((r :: g) :: gs) ((r :: g) ++ l).

(** What std::sort promises for a strict weak order. *)
Definition sorts {A} (srt : (A -> A -> bool) -> list A -> list A) : Prop :=
  forall f l, Permutation (srt f l) l /\
    ((forall a b, f a b = true -> f b a = false) -> (forall a b c, f b a = false -> f c b = false -> f c a = false) -> StronglySorted (fun a b => f b a = false) (srt f l)).
