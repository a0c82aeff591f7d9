(** The difference of two columns of column tables: src/trident/binarytables/newcolumntable.cpp
    columnNotIn and its four variants.  The values are unsigned 64-bit integers of at most 8
    bytes, so comparing them as integers is exact. *)
From Verif Require Import ColumnModel.
Local Open Scope Z_scope.

(** One column: its memory, the bytes of a value, the distance between values, begin and end. *)
Record ncol := mkNcol { n_mem : mem; n_w : nat; n_step : Z; n_begin : Z; n_end : Z }.

Section NotIn.
Variables (c d : ncol) (stop : bool).
(** newcolumntable.cpp 282-303 (and 327-348, 372-393, 417-438): the merge.  The result is the
    output, begin1 and tv. *)
Fixpoint ni_merge (fuel : nat) (tv ov p q : Z) : option (list Z * Z * Z) :=
  match fuel with
  | O => None
  | S f =>
      if tv <=? ov then
        let out := if tv <? ov then [tv] else [] in
        if (tv <? ov) && stop then Some (out, p, tv)
        else
          let p1 := p + n_step c in
          if p1 =? n_end c then Some (out, p1, tv)
          else
            do tv1 <- rdn (n_w c) (n_mem c) p1;
            do (r, tv2) <- ni_merge f tv1 ov p1 q;
            Some (out ++ fst r, snd r, tv2)
      else
        let q1 := q + n_step d in
        if q1 =? n_end d then Some ([], p, tv)
        else
          do ov1 <- rdn (n_w d) (n_mem d) q1;
          ni_merge f tv ov1 p q1
  end.
(** 305-315: the rest of the first column. *)
Fixpoint ni_rest (fuel : nat) (p : Z) : option (list Z) :=
  match fuel with
  | O => None
  | S f =>
      if p =? n_end c then Some []
      else
        do tv <- rdn (n_w c) (n_mem c) p;
        if stop then Some [tv] else do r <- ni_rest f (p + n_step c); Some (tv :: r)
  end.
(** 272-316 (columnNotIn11); 318-361, 363-406 and 408-451 differ in the steps only. *)
Definition ni_run : option (list Z) :=
  do tv <- rdn (n_w c) (n_mem c) (n_begin c);
  do ov <- rdn (n_w d) (n_mem d) (n_begin d);
  do (r, tv1) <- ni_merge (FU (n_mem c) + FU (n_mem d)) tv ov (n_begin c) (n_begin d);
  if snd r =? n_end c then Some (fst r)
  else if stop then Some (fst r ++ [tv1])
  else do l <- ni_rest (FU (n_mem c)) (snd r + n_step c); Some (fst r ++ tv1 :: l).
End NotIn.

(** 213-259, the choice of the columns; [None] is the exception at 257. *)
Definition ncol_of (id : Z) (s : col_st) : option ncol :=
  if id =? 1 then Some (mkNcol (d_mem s) (d_b1 s) (d_bfb s) (d_sp1 s) (d_sp2 s))
  else if id =? 2 then Some (mkNcol (d_mem s) (d_b2 s) (d_z2 s) (d_sb2 s) (d_sb2 s + d_z2 s * d_cc s))
  else None.
Definition columnNotIn (id : Z) (s : col_st) (id' : Z) (s' : col_st) (stop : bool) : option (list Z) :=
  do c <- ncol_of id s;
  do d <- ncol_of id' s';
  ni_run c d stop.
