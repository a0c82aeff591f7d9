(** ORDER BY: rdf3x/src/cts/CodeGen.cpp, translateIntern. *)
From Verif Require Import FullModel KbModel TsKbModel.
From Verif Require Import OpModel PlanModel FiltModel PushModel.
From Verif Require Import SelModel.
From Verif Require Import PlanModel FiltModel PushModel.
Local Open Scope Z_scope.

Section Ordered.
Variable sortf : (list Z * Z -> list Z * Z -> bool) -> list (list Z * Z) -> list (list Z * Z).
Variables (lookup : Z -> option (list Z)) (cut : nat) (fcmp : Z -> Z -> Z).
Variables (w : world) (fuel : nat) (memory : Z) (open : nat -> option Z -> option Z -> option Z -> option pitr) (terms : nat -> option pitr) (nodes : list node) (filters : list filt).

(** CodeGen.cpp 1161-1208, translateIntern, for a query with ORDER BY on variables ([order] is not empty, with [true] for DESC): these variables are
    requested together with those that are projected; Sort keeps the registers of all of them and compares those of [order].  [None]: a variable
    without a register, whose pointer is null. *)
Definition translateOrdered (projection : list nat) (order : list (nat * bool)) (p : plan) : option (oper * list nat) :=
  let proj := addAll (map fst order) (addAll projection []) in
  do (o, b) <- translateAbove w fuel memory open terms nodes filters proj (rev (filter (fun f => negb (applied nodes f p)) filters)) p;
  let reg x := match bget x b with Some r => r | None => (3 * length nodes)%nat end in
  if forallb (fun x => match bget x b with Some _ => true | None => false end) proj
  then Some (sort_op sortf lookup cut fcmp fuel (map reg proj) (map (fun xd => (Some (reg (fst xd)), snd xd)) order) o, map reg projection)
  else None.
End Ordered.
