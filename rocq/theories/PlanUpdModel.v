(** Index scans over a loaded database with updates. *)
From Verif Require Export TsKbModel UpdKbModel PlanModel.
Local Open Scope Z_scope.

(** src/layers/TridentLayer.cpp 1140-1214, TridentScan::first: the iterator that is opened, by Querier::getPermuted
    (src/trident/kb/querier.cpp 689-773), over a database with updates. *)
Definition upd_scan_open (fuel : nat) (so : sorters) (d : db) (us : list UpdKbModel.upd) (idx : nat) (v1 v2 v3 : option Z) : option pitr :=
  let arg := fun v => match v with Some x => to_i64 x | None => -1 end in
  do (s, p, o) <- getPermuted_args (Z.of_nat idx) (arg v1) (arg v2) (arg v3);
  kb_updated fuel so d us idx s p o.
