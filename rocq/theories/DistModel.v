(** SELECT DISTINCT: rdf3x/src/cts/PlanGen.cpp, translate; CodeGen.cpp, translateHashGroupify and translate; ResultsPrinter.cpp. *)
From Verif Require Import FullModel KbModel TsKbModel.
From Verif Require Import OpModel PlanModel FiltModel PushModel.
From Verif Require Import SelModel.
From Verif Require Import PlanModel FiltModel PushModel.
Local Open Scope Z_scope.

Section Distinct.
Variable enum : list hg_group -> list nat.
Variables (w : world) (fuel : nat) (memory : Z) (open : nat -> option Z -> option Z -> option Z -> option pitr) (terms : nat -> option pitr) (nodes : list node) (filters : list filt).

(** PlanGen.cpp 1473-1483: HashGroupify is the root of the plan.  CodeGen.cpp 1161-1208, translateIntern: the variables of ORDER BY
    are requested together with those that are projected.  438-451, translateHashGroupify: it groups by all
    registers of the bindings.  Simplification: Sort (1186-1197), which only orders the rows (C62_sort), is left out. *)
Definition translateDistinct (projection order : list nat) (p : plan) : option (oper * list nat) :=
  do (o, b) <- translateAbove w fuel memory open terms nodes filters (addAll order (addAll projection [])) (rev (filter (fun f => negb (applied nodes f p)) filters)) p;
  Some (hash_groupify enum fuel (map snd b) o, map (fun x => match bget x b with Some r => r | None => (3 * length nodes)%nat end) projection).
End Distinct.
(** ResultsPrinter.cpp 350-369 with 457-470, or formatJSON 225-235, for ReduceDuplicates: each row that is collected is printed once. *)
Definition rp_distinct (fuel : nat) (limit offset : Z) (out : list nat) (input : oper) (g : regs) : option (list (list Z)) :=
  do (c, g1, i1) <- o_first input g;
  if c =? 0 then Some []
  else do es <- rp_collect fuel limit out i1 c offset 0 g1; Some (map snd es).
