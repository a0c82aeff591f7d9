(** Index scans over a loaded database. *)
From Verif Require Export TsModel QueryModel KbModel.
Local Open Scope Z_scope.

(** TridentLayer.cpp 1140-1214, TridentScan::first: the iterator that is opened, by Querier::getPermuted
    (querier.cpp 689-707 and, without constraints, 709-773 for a permutation that can be served). *)
Definition kb_scan_open (fuel : nat) (d : db) (idx : nat) (v1 v2 v3 : option Z) : option pitr :=
  let arg := fun v => match v with Some x => to_i64 x | None => -1 end in
  do (s, p, o) <- getPermuted_args (Z.of_nat idx) (arg v1) (arg v2) (arg v3);
  kb_query fuel d idx s p o.
