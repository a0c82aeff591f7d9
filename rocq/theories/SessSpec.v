(** What a user of the file manager relies on. *)
From Verif Require Import ItrModel UtilModel SessModel.
Local Open Scope Z_scope.

(** The calls; a call that reads or writes a file that is not open opens it, and finds the given
    size on disk. *)
Inductive call :=
| NewSession | CloseSession (k : nat) | Read (id : nat) (size : Z) | ReadSes (id : nat) (size : Z) (k : nat)
| Grow (id : nat) (size : Z).

Definition run1 (c : call) (s : fm) : option fm :=
  match c with
  | NewSession => Some (fst (new_session s))
  | CloseSession k => close_session k s
  | Read id size => get_buffer id size s
  | ReadSes id size k => get_buffer_ses id size k s
  | Grow id size => grow id size s
  end.

(** The session has been handed out and not closed. *)
Definition in_use (s : fm) (k : nat) : Prop := exists v, nth_error (f_sess s) k = Some v /\ v <> FREE.

(** Calls are made with sessions that are in use. *)
Definition call_ok (s : fm) (c : call) : Prop :=
  match c with
  | ReadSes _ size k => 0 <= size /\ in_use s k
  | Read _ size | Grow _ size => 0 <= size
  | CloseSession k => in_use s k
  | NewSession => True
  end.

Inductive calls : fm -> list call -> fm -> Prop :=
| calls_nil s : calls s [] s
| calls_cons s c s1 l s2 : call_ok s c -> run1 c s = Some s1 -> calls s1 l s2 -> calls s (c :: l) s2.

(** Session [k] holds file [id]: the file is open with the block the session locked. *)
Definition holds (s : fm) (k id : nat) : Prop :=
  exists t b, f_open s id = Some t /\ nth_error (f_sess s) k = Some (Z.of_nat t) /\
    slot (f_mm s) t = Some b /\ b_parent b = id.

Definition uses (k : nat) (c : call) : Prop :=
  match c with ReadSes _ _ j | CloseSession j => j = k | _ => False end.

(** The number of sessions on a block. *)
Definition sessions_on (s : fm) (t : nat) : Z := Z.of_nat (count_occ Z.eq_dec (f_sess s) (Z.of_nat t)).
