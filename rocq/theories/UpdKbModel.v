(** Querier::getIterator over a loaded database with updates. *)
From Verif Require Export KbModel DiffModel.
From Verif Require Import QueryModel.
From Coq Require Import ZArith List.
Import ListNotations.
Local Open Scope Z_scope.

(** include/trident/kb/diffindex.h, class DiffIndex3 with its getType: whether the update is a
    deletion, its indices, and what the mapping of its files (src/trident/kb/diffindex3.cpp 38-117) holds after
    their ends. *)
Record upd := mkUpd { up_del : bool; up_ix : dix; up_pad : Z -> list Z }.
Definition up_mem (u : upd) (i : Z) : list Z := dx_file (up_ix u) i ++ up_pad u i.

(** src/trident/kb/querier.cpp 1103-1111, 1149-1177 for updates of class DIFF3: the iterator of one
    update.  nfirstterms is left out. *)
Definition upd_itr (idx first second third : Z) (u : upd) : option pitr :=
  if 0 <=? first then diff_get (up_ix u) (up_mem u) idx first second third
  else Some (diff_scan (up_ix u) (up_mem u) idx).

(** The iterators of all updates, in the order of the updates.  (The code opens one when the loop
    at 1100 reaches it.) *)
Fixpoint upd_itrs (idx first second third : Z) (us : list upd) : option (list (bool * pitr)) :=
  match us with
  | [] => Some []
  | u :: r =>
    do it <- upd_itr idx first second third u;
    do l <- upd_itrs idx first second third r;
    Some ((up_del u, it) :: l)
  end.

(** The PairItr that getIterator returns, whichever class it has (querier.cpp 1016-1089). *)
Definition h_itr (fuel : nat) (d : db) (idx : nat) (h : helper) : pitr :=
  match h with HItr it => it | HScan st => sc_obj fuel d idx st end.

(** querier.cpp 1016-1214, getIterator with cons: the iterator over the database, and the updates on
    top of it.  Simplification: with updates, the result does not support gotoKey; in the code
    it does if it is a ScanItr, that is, if all updates are empty. *)
Definition kb_over (fuel : nat) (so : sorters) (d : db) (us : list upd) (idx : nat) (s p o : Z) : option (option helper) :=
  do r <- kb_base fuel d idx s p o;
  match r with
  | None => Some None
  | Some h =>
    match us with
    | [] => Some (Some h)
    | _ =>
      do (first, second, third) <- getIterator_split (Z.of_nat idx) s p o;
      do fs <- upd_itrs (Z.of_nat idx) first second third us;
      do it <- overlay fuel so first fs (h_itr fuel d idx h);
      Some (Some (HItr it))
    end
  end.

(** querier.cpp 1216-1241, getIterator, without partial indices (1226-1231). *)
Definition kb_updated (fuel : nat) (so : sorters) (d : db) (us : list upd) (idx : nat) (s p o : Z) : option pitr :=
  do r <- kb_over fuel so d us idx s p o;
  match r with
  | Some h => Some (h_itr fuel d idx h)
  | None =>
    if Nat.eqb idx 0 || Nat.eqb idx 3 then None
    else
      do r <- kb_over fuel so d us 0 s p o;
      do h <- r;
      Some (ro_obj fuel d idx p o (mkRo h None 0 None false 0))
  end.
