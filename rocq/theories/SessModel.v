(** Model of include/trident/files/filemanager.h: the table of open files over a memory manager
    ([UtilModel]) and the sessions that lock a file's memory.  Single threaded; the manager has a
    tracker of its own (not null).  An assertion that fails, a null pointer, an index out of
    bounds and a loop that does not end are [None]. *)
From Verif Require Import ItrModel UtilModel.
Local Open Scope Z_scope.

(** kb/consts.h: FREE_SESSION and EMPTY_SESSION. *)
Definition FREE : Z := -3.
Definition EMPTY : Z := -2.

(** 45-67; [f_open] is openedFiles with the tracker identifier of each file in place of the file;
    [f_list] is trackerOpenedFiles; [f_sess] has MAX_SESSIONS entries. *)
Record fm := mkFM { f_mm : mm; f_open : nat -> option nat; f_n : Z; f_list : list nat; f_max : Z;
  f_sess : list Z; f_last : nat }.

(** 132-147, constructor, with [nsess] sessions and a tracker of [slots] slots. *)
Definition fm_new (slots : nat) (bytes : Z) (nsess : nat) (maxFiles : Z) : fm :=
  mkFM (mm_new slots bytes) (fun _ => None) 0 [] maxFiles (repeat FREE nsess) 0.

Definition upd (o : nat -> option nat) (i : nat) (v : option nat) : nat -> option nat :=
  fun j => if Nat.eqb j i then v else o j.
Fixpoint set_sess (l : list Z) (i : nat) (v : Z) : list Z :=
  match l, i with [], _ => [] | _ :: l, O => v :: l | x :: l, S i => x :: set_sess l i v end.

(** 81-110, the search for a file to close.  The result is the list, nOpenedFiles, the file and
    whether to close it.  Line 101: with an empty list the loop goes on with the same (null) file
    forever. *)
Fixpoint lf_loop (fuel : nat) (m : mm) (o : nat -> option nat) (l : list nat) (n : Z) (idx : nat)
  (first : option nat) : option (list nat * Z * nat * bool) :=
  match fuel with
  | O => None
  | S f =>
      do busy <- match o idx with None => Some true | Some t => mm_isUsed t m end;
      if busy then
        let '(l1, n1, first1) :=
          match o idx with
          | Some _ => (l ++ [idx], n, match first with None => Some idx | Some _ => first end)
          | None => (l, n - 1, first)
          end in
        match l1 with
        | x :: l2 =>
            if match first1 with Some y => Nat.eqb x y | None => false end then Some (l2, n1, x, false)
            else lf_loop f m o l2 n1 x first1
        | [] => None
        end
      else Some (l, n, idx, true)
  end.

(** 79-117, closing one file: its destructor (filedescriptor.cpp 215-218) forgets the block. *)
Definition close_one (s : fm) : option fm :=
  if f_max s <=? f_n s then
    match f_list s with
    | [] => None
    | x :: l =>
        if match l with [] => true | _ => false end then None       (* 82, assert *)
        else
          do (r, rem) <- lf_loop (2 * length (f_list s) + 2) (f_mm s) (f_open s) l (f_n s) x None;
          let '(l1, n1, idx) := r in
          if rem then
            do t <- f_open s idx;
            Some (mkFM (mm_forget t (f_mm s)) (upd (f_open s) idx None) (n1 - 1) l1 (f_max s) (f_sess s) (f_last s))
          else Some (mkFM (f_mm s) (f_open s) n1 l1 (f_max s) (f_sess s) (f_last s))
    end
  else Some s.

(** The files whose blocks the tracker deleted: memorymgr.h 91 sets their entries to null. *)
Definition evicted (m m' : mm) : list mblock := firstn (length (m_dead m') - length (m_dead m)) (m_dead m').
Definition clear_dead (o : nat -> option nat) (d : list mblock) : nat -> option nat :=
  fold_right (fun b o => upd o (b_parent b) None) o d.

(** 73-130, load_file; [size] is the size of the file on disk, that filedescriptor.cpp 40-66 and
    68-89 give to the tracker. *)
Definition load_file (id : nat) (size : Z) (s : fm) : option fm :=
  match f_open s id with
  | Some _ => Some s
  | None =>
      do s1 <- close_one s;
      do (m, t) <- mm_add size id id (f_mm s1);
      Some (mkFM m (upd (clear_dead (f_open s1) (evicted (f_mm s1) m)) id (Some t)) (f_n s1 + 1)
              (f_list s1 ++ [id]) (f_max s1) (f_sess s1) (f_last s1))
  end.

Definition with_mm (s : fm) (m : mm) : fm := mkFM m (f_open s) (f_n s) (f_list s) (f_max s) (f_sess s) (f_last s).
Definition with_sess (s : fm) (l : list Z) : fm := mkFM (f_mm s) (f_open s) (f_n s) (f_list s) (f_max s) l (f_last s).

(** 153-156, getBuffer without a session, as far as the open files go. *)
Definition get_buffer (id : nat) (size : Z) (s : fm) : option fm := load_file id size s.

(** 158-179, getBuffer with a session. *)
Definition get_buffer_ses (id : nat) (size : Z) (k : nat) (s : fm) : option fm :=
  do s1 <- load_file id size s;
  do t <- f_open s1 id;
  do v <- nth_error (f_sess s1) k;
  if v =? Z.of_nat t then Some s1
  else
    do m1 <- (if 0 <=? v then mm_releaseLock (Z.to_nat v) (f_mm s1) else Some (f_mm s1));
    do m2 <- mm_addLock t m1;
    Some (with_sess (with_mm s1 m2) (set_sess (f_sess s1) k (Z.of_nat t))).

(** 183-190, the search for a free session: the place where it stops, and the session. *)
Fixpoint ns_loop (fuel : nat) (l : list Z) (last : nat) : nat * option nat :=
  if nth last l 0 =? FREE then (last, Some last)
  else
    let next := Nat.modulo (S last) (length l) in
    match fuel with O => (next, None) | S f => ns_loop f l next end.
(** 181-196, newSession; without a session it throws. *)
Definition new_session (s : fm) : fm * option nat :=
  match ns_loop (length (f_sess s)) (f_sess s) (f_last s) with
  | (_, Some k) =>
      (mkFM (f_mm s) (f_open s) (f_n s) (f_list s) (f_max s) (set_sess (f_sess s) k EMPTY)
         (Nat.modulo (S k) (length (f_sess s))), Some k)
  | (last, None) => (mkFM (f_mm s) (f_open s) (f_n s) (f_list s) (f_max s) (f_sess s) last, None)
  end.
(** 198-205, closeSession. *)
Definition close_session (k : nat) (s : fm) : option fm :=
  do v <- nth_error (f_sess s) k;
  do m <- (if 0 <=? v then mm_releaseLock (Z.to_nat v) (f_mm s) else Some (f_mm s));
  Some (with_sess (with_mm s m) (set_sess (f_sess s) k FREE)).

(** The growing of an open file: filedescriptor.cpp 58-60. *)
Definition grow (id : nat) (size : Z) (s : fm) : option fm :=
  do t <- f_open s id;
  do m <- mm_update t size (f_mm s);
  Some (with_mm s m).
