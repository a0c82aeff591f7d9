(** Independent specification for patterns and permutations. *)
From Verif Require Import QueryModel.
From Coq Require Import Sorted.
Local Open Scope Z_scope.

(** A triple is (subject, predicate, object); position 0, 1, 2. *)
Definition triple := (Z * Z * Z)%type.
Definition field (t : triple) (i : nat) : Z :=
  match t with (s, p, o) => match i with O => s | S O => p | _ => o end end.

(** A pattern value < 0 is free, otherwise it must be equal. *)
Definition matches1 (pat v : Z) : Prop := pat < 0 \/ pat = v.
Definition matches (pat t : triple) : Prop :=
  forall i, (i < 3)%nat -> matches1 (field pat i) (field t i).

(** Lexicographic order of triples read through the list of positions [ord]. *)
Fixpoint lex_le (ord : list nat) (t1 t2 : triple) : Prop :=
  match ord with
  | [] => True
  | i :: ord' => field t1 i < field t2 i \/ (field t1 i = field t2 i /\ lex_le ord' t1 t2)
  end.

(** Name of each permutation id as the sequence of positions it stands for; taken from
    the names SPO, OPS, ... (S=0, P=1, O=2) and not from the tables of the code. *)
Definition perm_positions (idx : Z) : option (list nat) :=
  let S := 0%nat in let P := 1%nat in let O := 2%nat in
  if idx =? IDX_SPO then Some [S; P; O]
  else if idx =? IDX_OPS then Some [O; P; S]
  else if idx =? IDX_POS then Some [P; O; S]
  else if idx =? IDX_SOP then Some [S; O; P]
  else if idx =? IDX_OSP then Some [O; S; P]
  else if idx =? IDX_PSO then Some [P; S; O]
  else None.

Definition is_perm (idx : Z) : Prop := 0 <= idx <= 5.

(** The triple read through the positions [ord]. *)
Definition reorder (ord : list nat) (t : triple) : triple :=
  (field t (nth 0 ord 0%nat), field t (nth 1 ord 0%nat), field t (nth 2 ord 0%nat)).
