(** Specification of growable files: what each call does to the content of a file. *)
From Verif Require Import FileModel.
Local Open Scope Z_scope.

(** Calls that make sense on a file of [n] bytes. *)
Definition fop_valid (n : Z) (o : fop) : Prop :=
  match o with
  | FAppend _ => True
  | FField w _ => True
  | FVLong2 v => 0 <= v < 2 ^ 56
  | FReserve k => 0 <= k
  | FOverwrite pos bs => 0 <= pos /\ pos + zlen bs <= n
  | FShift pos diff => 0 <= pos <= n /\ 0 <= diff
  end.

(** Content before, call, content after: appended bytes come at the end, an overwrite changes
    only the bytes it covers, and a shift opens a gap and keeps all other bytes. *)
Inductive fstep : list Z -> fop -> list Z -> Prop :=
| fs_append c bs : fstep c (FAppend bs) (c ++ bs)
| fs_field c w v : fstep c (FField w v) (c ++ enc w v)
| fs_vlong2 c v : fstep c (FVLong2 v) (c ++ enc_vlong2 v)
| fs_reserve c n gap : zlen gap = n -> fstep c (FReserve n) (c ++ gap)
| fs_overwrite a old b pos bs : zlen a = pos -> length old = length bs ->
    fstep (a ++ old ++ b) (FOverwrite pos bs) (a ++ bs ++ b)
| fs_shift a b pos gap : zlen a = pos -> fstep (a ++ b) (FShift pos (zlen gap)) (a ++ gap ++ b).

(** Sequences of calls, each valid when it is made. *)
Inductive fsteps : list Z -> list fop -> list Z -> Prop :=
| fss_nil c : fsteps c [] c
| fss_cons c o c1 os c2 : fstep c o c1 -> fsteps c1 os c2 -> fsteps c (o :: os) c2.

(** Number of bytes after a call. *)
Definition fop_size (n : Z) (o : fop) : Z :=
  match o with
  | FAppend bs => n + zlen bs
  | FField w _ => n + Z.of_nat w
  | FVLong2 v => n + zlen (enc_vlong2 v)
  | FReserve k => n + k
  | FOverwrite _ _ => n
  | FShift _ diff => n + diff
  end.
Fixpoint fops_valid (n : Z) (os : list fop) : Prop :=
  match os with
  | [] => True
  | o :: t => fop_valid n o /\ fops_valid (fop_size n o) t
  end.
