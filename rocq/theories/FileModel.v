(** Growable mapped files and the storage of binary tables in numbered files. *)
From Verif Require Export StrategyModel.
Local Open Scope Z_scope.

Definition zlen {A} (l : list A) : Z := Z.of_nat (length l).

(** memcpy of [bs] to offset [p]; outside of the mapping it is undefined behaviour. *)
Definition wr (m : mem) (p : Z) (bs : list Z) : option mem :=
  if (0 <=? p) && (p + zlen bs <=? zlen m)
  then Some (firstn (Z.to_nat p) m ++ bs ++ skipn (Z.to_nat p + length bs) m)
  else None.

(** ** src/trident/files/filedescriptor.cpp *)

(** include/trident/files/filedescriptor.h 37-57: buffer, of sizeFile bytes, and size.  The
    memory tracker is not modelled. *)
Record fd := mkFd { f_buf : mem; f_size : Z }.

(** filedescriptor.cpp 68-88, constructor: an existing file, and a new one, which is created
    with [init] = 1024 * 1024 + 1 bytes (77-79). *)
Definition fd_open (content : list Z) : fd := mkFd content (zlen content).
Definition fd_new (init : Z) : fd := mkFd (repeat 0 (Z.to_nat init)) 0.

(** filedescriptor.cpp 40-66, mapFile with an increment: the file grows (the new bytes are
    zero) and is mapped again. *)
Definition fd_map (f : fd) (inc : Z) : fd := mkFd (f_buf f ++ repeat 0 (Z.to_nat inc)) (f_size f).

(** The growth test of all append functions, e.g. 112-115; [small] is SMALLEST_INCR. *)
Definition fd_room (small n : Z) (f : fd) : fd :=
  if zlen (f_buf f) <? n + f_size f
  then fd_map f (Z.max small (Z.max n (zlen (f_buf f)))) else f.

(** Growth by [n] bytes followed by writing [bs] at the end. *)
Definition fd_put (small n : Z) (bs : list Z) (f : fd) : option fd :=
  let f1 := fd_room small n f in
  do b <- wr (f_buf f1) (f_size f1) bs;
  Some (mkFd b (f_size f1 + zlen bs)).

(** filedescriptor.cpp 111-118, append. *)
Definition fd_append (small : Z) (bs : list Z) (f : fd) : option fd := fd_put small (zlen bs) bs f.
(** 150-186, appendLong (8), appendInt (4), appendShort (2) and appendLong(nbytes). *)
Definition fd_appendField (small : Z) (w : nat) (v : Z) (f : fd) : option fd :=
  fd_put small (Z.of_nat w) (enc w v) f.
(** 140-148, appendVLong2: makes room for 8 bytes. *)
Definition fd_appendVLong2 (small v : Z) (f : fd) : option fd := fd_put small 8 (enc_vlong2 v) f.
(** 188-194, reserveBytes. *)
Definition fd_reserve (small n : Z) (f : fd) : option fd :=
  let f1 := fd_room small n f in Some (mkFd (f_buf f1) (f_size f1 + n)).
(** 196-202, overwriteAt and overwriteVLong2At. *)
Definition fd_overwrite (pos : Z) (bs : list Z) (f : fd) : option fd :=
  do b <- wr (f_buf f) pos bs; Some (mkFd b (f_size f)).
(** 101-109, shiftFile; memmove of size - pos bytes (an unsigned difference). *)
Definition fd_shift (small pos diff : Z) (f : fd) : option fd :=
  let f1 := fd_room small diff f in
  if pos <=? f_size f1 then
    do b <- wr (f_buf f1) (pos + diff)
              (firstn (Z.to_nat (f_size f1 - pos)) (skipn (Z.to_nat pos) (f_buf f1)));
    Some (mkFd b (f_size f1 + diff))
  else None.
(** What the file holds; the destructor (215-234) cuts it to this. *)
Definition fd_content (f : fd) : list Z := firstn (Z.to_nat (f_size f)) (f_buf f).

(** Calls on a file. *)
Inductive fop :=
| FAppend (bs : list Z) | FField (w : nat) (v : Z) | FVLong2 (v : Z) | FReserve (n : Z)
| FOverwrite (pos : Z) (bs : list Z) | FShift (pos diff : Z).
Definition fd_step (small : Z) (o : fop) (f : fd) : option fd :=
  match o with
  | FAppend bs => fd_append small bs f
  | FField w v => fd_appendField small w v f
  | FVLong2 v => fd_appendVLong2 small v f
  | FReserve n => fd_reserve small n f
  | FOverwrite pos bs => fd_overwrite pos bs f
  | FShift pos diff => fd_shift small pos diff f
  end.
Fixpoint fd_run (small : Z) (os : list fop) (f : fd) : option fd :=
  match os with
  | [] => Some f
  | o :: t => do f1 <- fd_step small o f; fd_run small t f1
  end.

(** ** src/trident/binarytables/tableshandler.cpp *)

(** include/trident/binarytables/tableshandler.h 76-80. *)
Record mark_t := mkMark { mk_key : Z; mk_pos : Z; mk_strat : Z }.

(** tableshandler.h 82-114.  The files of the FileManager are given by their contents (what
    fd_content gives): include/trident/files/filemanager.h closes and reopens descriptors, but
    this does not change the contents.  t_idx are the .idx files on disk. *)
Record ts := mkTs {
  t_file : nat -> list Z; t_idx : nat -> option (list Z);
  t_marks : list (list mark_t);      (* marksToStore *)
  t_created : list Z;                (* createdMarks *)
  t_last : nat; t_sizeLast : Z;      (* lastCreatedFile, sizeLastCreatedFile *)
  t_cur : nat; t_prev : nat          (* fileCurrentIndex, filePreviousIndex *)
}.

(** tableshandler.cpp 55-95, constructor, on an empty directory.  fileCurrentIndex is -1 but
    is set before it is read. *)
Definition ts_new : ts := mkTs (fun _ => []) (fun _ => None) [] [] 0 0 0 0.

Definition upd {A} (f : nat -> A) (i : nat) (v : A) : nat -> A :=
  fun j => if Nat.eqb j i then v else f j.
Fixpoint set_nth {A} (l : list A) (i : nat) (v : A) : list A :=
  match l, i with
  | [], _ => []
  | _ :: t, O => v :: t
  | x :: t, S j => x :: set_nth t j v
  end.

(** tableshandler.cpp 254-260: one entry of an .idx file. *)
Definition mark_bytes (m : mark_t) : list Z := enc 5 (mk_pos m) ++ enc 5 (mk_key m) ++ [mk_strat m mod 256].

(** tableshandler.cpp 236-262, storeFileIndex. *)
Definition storeFileIndex (input : list mark_t) (old : option (list Z)) : option (list Z) :=
  match old with
  | Some b => do n <- rd 8 b 0;
              do b1 <- wr b 0 (enc 8 (n + zlen input));
              Some (b1 ++ flat_map mark_bytes input)
  | None => Some (enc 8 (zlen input) ++ flat_map mark_bytes input)
  end.

(** include/trident/kb/consts.h, MAX_N_FILES. *)
Definition MAX_N_FILES : nat := 4096.

(** storeFileIndex for file [i], then the marks of file [i] are dropped (177-180, 220-223). *)
Definition ts_flush (i : nat) (t : ts) : option ts :=
  do ms <- nth_error (t_marks t) i;
  do ix <- storeFileIndex ms (t_idx t i);
  Some (mkTs (t_file t) (upd (t_idx t) i (Some ix)) (set_nth (t_marks t) i []) (t_created t)
          (t_last t) (t_sizeLast t) (t_cur t) (t_prev t)).

(** tableshandler.cpp 159-195, startAppend: the storage and the mark.  [maxsize] is the
    maximal file size, [maxmarks] is 10000000 (line 173). *)
Definition ts_start (maxsize maxmarks key strat : Z) (t : ts) : option (ts * Z) :=
  do t1 <- (if maxsize <? zlen (t_file t (t_last t)) then
              if Nat.eqb (S (t_last t)) MAX_N_FILES then None
              else Some (mkTs (t_file t) (t_idx t) (t_marks t) (t_created t) (S (t_last t))
                           (zlen (t_file t (S (t_last t)))) (t_cur t) (t_prev t))
            else Some t);
  let last := t_last t1 in
  let '(marks, created) :=
    if Nat.leb (length (t_marks t1)) last
    then (t_marks t1 ++ [[]], t_created t1 ++ [0]) else (t_marks t1, t_created t1) in
  let t2 := mkTs (t_file t1) (t_idx t1) marks created last (t_sizeLast t1) (t_cur t1) (t_prev t1) in
  do ms <- nth_error marks last;
  do t3 <- (if maxmarks <=? zlen ms then ts_flush last t2 else Some t2);
  do ms3 <- nth_error (t_marks t3) last;
  do c <- nth_error (t_created t3) last;
  Some (mkTs (t_file t3) (t_idx t3)
          (set_nth (t_marks t3) last (ms3 ++ [mkMark key (t_sizeLast t3) strat]))
          (set_nth (t_created t3) last (c + 1)) last (t_sizeLast t3) last (t_prev t3), c).

(** The writes of a table's inserter (src/trident/binarytables/binarytableinserter.cpp and
    .h): bytes at the end of the last file.  Simplification: all at once. *)
Definition ts_write (bs : list Z) (t : ts) : ts :=
  mkTs (upd (t_file t) (t_last t) (t_file t (t_last t) ++ bs)) (t_idx t) (t_marks t) (t_created t)
    (t_last t) (t_sizeLast t) (t_cur t) (t_prev t).

(** tableshandler.cpp 210-225, stopAppend; the inserter's position is its base position plus
    the [n] bytes written. *)
Definition ts_stop (n : Z) (t : ts) : option ts :=
  let t1 := mkTs (t_file t) (t_idx t) (t_marks t) (t_created t) (t_last t) (t_sizeLast t + n)
              (t_cur t) (t_prev t) in
  do t2 <- (if Nat.eqb (t_prev t1) (t_cur t1) then Some t1
            else do ms <- nth_error (t_marks t1) (t_prev t1);
                 match ms with [] => Some t1 | _ => ts_flush (t_prev t1) t1 end);
  Some (mkTs (t_file t2) (t_idx t2) (t_marks t2) (t_created t2) (t_last t2) (t_sizeLast t2)
          (t_cur t2) (t_cur t2)).

(** tableshandler.cpp 227-234 and 264-271, stopInsert: storeFileIndices for all files. *)
Fixpoint ts_stopFrom (i : nat) (ms : list (list mark_t)) (idx : nat -> option (list Z))
  : option (nat -> option (list Z)) :=
  match ms with
  | [] => Some idx
  | [] :: t => ts_stopFrom (S i) t idx
  | m :: t => do ix <- storeFileIndex m (idx i); ts_stopFrom (S i) t (upd idx i (Some ix))
  end.
Definition ts_stopInsert (t : ts) : option ts :=
  do idx <- ts_stopFrom 0 (t_marks t) (t_idx t);
  Some (mkTs (t_file t) idx (t_marks t) (t_created t) (t_last t) (t_sizeLast t) (t_cur t) (t_prev t)).

(** tableshandler.h 61-70, FileMarks::getPos, on an .idx file (tableshandler.cpp 35-53, parse)
    of a file of [sizefile] bytes. *)
Definition getPos (ix : list Z) (sizefile mark : Z) : option (Z * Z) :=
  do n <- rd 8 ix 0;
  do s <- rdn 5 ix (8 + 11 * mark);
  do e <- (if mark =? n - 1 then Some sizefile else rdn 5 ix (8 + 11 * (mark + 1)));
  Some (s, e).

(** tableshandler.cpp 134-157, getTable: start and end of the table in the file.  A file that
    is empty when it is closed is removed (filedescriptor.cpp 226-229). *)
Definition ts_getTable (t : ts) (file : nat) (mark : Z) : option (Z * Z) :=
  do ix <- t_idx t file;
  match t_file t file with
  | [] => None
  | m => do (s, e) <- getPos ix (zlen m) mark; Some (s, s + (e - s))
  end.

(** A client that stores tables one after the other, and what it remembers of each. *)
Fixpoint ts_store (maxsize maxmarks : Z) (tabs : list (Z * Z * list Z)) (t : ts)
  : option (ts * list (nat * Z)) :=
  match tabs with
  | [] => Some (t, [])
  | (key, strat, bs) :: r =>
    do (t1, mk) <- ts_start maxsize maxmarks key strat t;
    do t2 <- ts_stop (zlen bs) (ts_write bs t1);
    do (t3, cs) <- ts_store maxsize maxmarks r t2;
    Some (t3, (t_last t1, mk) :: cs)
  end.
