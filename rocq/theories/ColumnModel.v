(** Column layout of binary tables: writer and reader. *)
From Verif Require Export TableModel.
Local Open Scope Z_scope.

(** ** src/trident/binarytables/newcolumntableinserter.cpp *)

(** include/trident/binarytables/newcolumntableinserter.h 28-45.  The temporary files hold
    8-byte integers; they are modelled by the list of values written to them. *)
Record ci_st := mkCi {
  ci_first : list (Z * Z);     (* tmpfirstpairs: (first value, starting point) *)
  ci_second : list Z;          (* tmpsecondpairs *)
  ci_lg : Z; ci_l1 : Z; ci_l2 : Z;   (* largestGroup, largestElement1, largestElement2 *)
  ci_prevtot : Z; ci_prevel1 : Z;
  ci_off1 : list (Z * Z);      (* offloaded first pairs *)
  ci_off2 : list Z             (* offloaded second values *)
}.

(** newcolumntableinserter.cpp 26-37, startAppend. *)
Definition ci_start : ci_st := mkCi [] [] 0 0 0 0 (-1) [] [].

Definition ci_total (s : ci_st) : Z := Z.of_nat (length (ci_second s)) + Z.of_nat (length (ci_off2 s)).

(** newcolumntableinserter.cpp 39-112, append; [th] is thresholdToOffload. *)
Definition ci_append (th : Z) (s : ci_st) (t : Z * Z) : ci_st :=
  let '(t1, t2) := t in
  let s1 :=
    if negb (ci_prevel1 s =? t1) then
      let tot := ci_total s in
      mkCi (ci_first s ++ [(t1, tot)]) (ci_second s)
        (if ci_lg s <? tot - ci_prevtot s then tot - ci_prevtot s else ci_lg s)
        (ci_l1 s) (ci_l2 s) tot t1 (ci_off1 s) (ci_off2 s)
    else s in
  let s2 := mkCi (ci_first s1) (ci_second s1 ++ [t2]) (ci_lg s1)
              (if ci_l1 s1 <=? t1 then t1 else ci_l1 s1)
              (if ci_l2 s1 <=? t2 then t2 else ci_l2 s1)
              (ci_prevtot s1) (ci_prevel1 s1) (ci_off1 s1) (ci_off2 s1) in
  let s3 :=
    if th <=? Z.of_nat (length (ci_first s2)) then
      mkCi [] (ci_second s2) (ci_lg s2) (ci_l1 s2) (ci_l2 s2) (ci_prevtot s2) (ci_prevel1 s2)
        (ci_off1 s2 ++ ci_first s2) (ci_off2 s2)
    else s2 in
  if th <=? Z.of_nat (length (ci_second s3)) then
    mkCi (ci_first s3) [] (ci_lg s3) (ci_l1 s3) (ci_l2 s3) (ci_prevtot s3) (ci_prevel1 s3)
      (ci_off1 s3) (ci_off2 s3 ++ ci_second s3)
  else s3.

(** One entry of the first column, lines 156-158, 168-174 and 186-192. *)
Definition col_entry (b1 bc bo : nat) (key count off : Z) : list Z :=
  enc b1 key ++ enc bc count ++ enc bo off.

(** newcolumntableinserter.cpp 147-165: entries read back from the temporary file; the
    last one is kept in (prevkey, prevsize).  Lines 149-164 read in chunks of 1000. *)
Fixpoint ci_dump1 (b1 bc bo : nat) (prevkey prevsize : Z) (l : list (Z * Z))
  : list Z * Z * Z :=
  match l with
  | [] => ([], prevkey, prevsize)
  | (v1, v2) :: t =>
    let '(out, k, s) := ci_dump1 b1 bc bo v1 v2 t in
    ((if negb (prevkey =? -1) then col_entry b1 bc bo prevkey (v2 - prevsize) prevsize else [])
     ++ out, k, s)
  end.

(** newcolumntableinserter.cpp 184-193. *)
Fixpoint ci_dump1mem (b1 bc bo : nat) (tot : Z) (l : list (Z * Z)) : list Z :=
  match l with
  | [] => []
  | v :: t =>
    col_entry b1 bc bo (fst v)
      (match t with v' :: _ => snd v' - snd v | [] => tot - snd v end) (snd v)
    ++ ci_dump1mem b1 bc bo tot t
  end.

(** newcolumntableinserter.cpp 114-219, stopAppend. *)
Definition ci_stop (s : ci_st) : list Z :=
  let tot := ci_total s in
  let lg := if ci_lg s <? tot - ci_prevtot s then tot - ci_prevtot s else ci_lg s in
  let b1 := nbytes (ci_l1 s) in
  let b2 := nbytes (ci_l2 s) in
  let bc := nbytes lg in
  let bo := nbytes tot in
  let header1 := (Z.of_nat b1 * 8 + Z.of_nat b2 mod 8) mod 256 in
  let header2 := (Z.of_nat bc * 8 + Z.of_nat bo mod 8) mod 256 in
  [header1; header2]
  ++ enc_vlong2 (Z.of_nat (length (ci_first s)) + Z.of_nat (length (ci_off1 s)))
  ++ enc_vlong2 tot
  ++ (match ci_off1 s with
      | [] => []
      | _ =>
        let '(out, pk, ps) := ci_dump1 b1 bc bo (-1) (-1) (ci_off1 s) in
        out ++ col_entry b1 bc bo pk
                 (match ci_first s with v :: _ => snd v - ps | [] => tot - ps end) ps
      end)
  ++ ci_dump1mem b1 bc bo tot (ci_first s)
  ++ flat_map (enc b2) (ci_off2 s)
  ++ flat_map (enc b2) (ci_second s).

Definition col_write (th : Z) (l : list (Z * Z)) : list Z :=
  ci_stop (fold_left (ci_append th) l ci_start).

(** ** include/trident/binarytables/newcolumntable.h *)

(** newcolumntable.h 42-73.  The members under DEBUG are not modelled. *)
Record col_st := mkCol {
  d_b1 : nat; d_b2 : nat; d_bc : nat; d_bo : nat;  (* bytesPerFirst/SecondEntry/Count/StartingPoint *)
  d_mem : mem;
  d_v1 : Z; d_v2 : Z;
  d_nTerms : Z; d_nUniq : Z;
  d_cc : Z; d_sc : Z;                (* currentCount, scannedCounts *)
  d_end : Z; d_sp1 : Z; d_sp2 : Z; d_sb2 : Z; (* end, startpos1, startpos2, startblock2 *)
  d_cp1 : Z; d_cp2 : Z;              (* currentpos1, currentpos2 *)
  d_ign : bool;
  d_saved : Z * Z * Z * Z * Z * Z * Z;
  d_key : Z
}.
Definition d_bfb (s : col_st) : Z := Z.of_nat (d_b1 s) + Z.of_nat (d_bc s) + Z.of_nat (d_bo s).
Definition d_z2 (s : col_st) : Z := Z.of_nat (d_b2 s).

(** Assignment of the fields that change during iteration. *)
Definition col_set (s : col_st) (v1 v2 cc sc sb2 cp1 cp2 : Z) : col_st :=
  mkCol (d_b1 s) (d_b2 s) (d_bc s) (d_bo s) (d_mem s) v1 v2 (d_nTerms s) (d_nUniq s) cc sc
    (d_end s) (d_sp1 s) (d_sp2 s) sb2 cp1 cp2 (d_ign s) (d_saved s) (d_key s).

(** newcolumntable.h 379-406, setup.  startblock2 and saved* are not initialised. *)
Definition col_setup (m : mem) (k start e : Z) : option col_st :=
  do header1 <- getb m start;
  do header2 <- getb m (start + 1);
  let b1 := Z.to_nat ((header1 / 8) mod 8) in
  let b2 := Z.to_nat (header1 mod 8) in
  let bo := Z.to_nat (header2 mod 8) in
  let bc := Z.to_nat ((header2 / 8) mod 8) in
  let bfb := Z.of_nat b1 + Z.of_nat bc + Z.of_nat bo in
  do (nu, p) <- dec_vlong2 m (start + 2);
  do (nt, p') <- dec_vlong2 m p;
  Some (mkCol b1 b2 bc bo m (-1) (-1) nt nu 0 0 e p' (p' + bfb * nu) 0 p' (p' + bfb * nu) false
          (0, 0, 0, 0, 0, 0, 0) k).

(** newcolumntable.h 154-162, hasNext. *)
Definition col_hasNext (s : col_st) : bool :=
  (d_cp1 s <? d_sp2 s) || (negb (d_ign s) && (d_cp2 s <? d_end s)).

(** newcolumntable.h 164-185, next (the assertion at 166 is a precondition). *)
Definition col_next (s : col_st) : option col_st :=
  do s1 <- (if d_ign s || (d_sc s =? d_cc s) then
              do a <- rdn (d_b1 s) (d_mem s) (d_cp1 s);
              let p := d_cp1 s + Z.of_nat (d_b1 s) in
              do n <- rdn (d_bc s) (d_mem s) p;
              Some (col_set s a (d_v2 s) n 0 (d_cp2 s)
                      (p + (Z.of_nat (d_bc s) + Z.of_nat (d_bo s))) (d_cp2 s))
            else Some s);
  if negb (d_ign s) then
    do b <- rdn (d_b2 s) (d_mem s) (d_cp2 s1);
    Some (col_set s1 (d_v1 s1) b (d_cc s1) (d_sc s1 + 1) (d_sb2 s1) (d_cp1 s1)
            (d_cp2 s1 + d_z2 s))
  else Some s1.

(** newcolumntable.h 226-245 and 285-301: binary search for value c, an unsigned 64-bit
    integer, among fields of w bytes that start every [stride] bytes in [s,e).  Result:
    (s, position if found). *)
Fixpoint col_bsearch (fuel : nat) (w : nat) (stride : Z) (m : mem) (s e c : Z)
  : option (Z * option Z) :=
  match fuel with
  | O => None
  | S f =>
    if s <? e then
      let mid := s + Z.quot (Z.quot (e - s) stride) 2 * stride in
      do v <- rdn w m mid;
      if v <? c then col_bsearch f w stride m (mid + stride) e c
      else if c <? v then col_bsearch f w stride m s mid c
      else Some (s, Some mid)
    else Some (s, None)
  end.

Definition u64 (v : Z) : Z := v mod 2 ^ 64.

(** newcolumntable.h 220-269: the part of moveto that looks for the first value.  Returns
    the state and searchsecondterm. *)
Definition col_moveto1 (s : col_st) (c1 : Z) : option (col_st * bool) :=
  if d_v1 s <? c1 then
    do (p, r) <- col_bsearch (FU (d_mem s)) (d_b1 s) (d_bfb s) (d_mem s) (d_cp1 s) (d_sp2 s) (u64 c1);
    match r with
    | Some mid =>
      do idx <- rdn (d_bo s) (d_mem s) (mid + Z.of_nat (d_b1 s) + Z.of_nat (d_bc s));
      let q := d_sp2 s + idx * d_z2 s in
      Some (col_set s (d_v1 s) (-1) 0 0 q mid q, true)
    | None =>
      if d_sp2 s <=? p then
        Some (col_set s (d_v1 s) (-1) (d_cc s) 0 (d_sb2 s) (d_sp2 s) (d_end s), false)
      else
        do idx <- rdn (d_bo s) (d_mem s) (p + Z.of_nat (d_b1 s) + Z.of_nat (d_bc s));
        let q := d_sp2 s + idx * d_z2 s in
        Some (col_set s (d_v1 s) (-1) 0 0 q p q, false)
    end
  else if d_ign s then
    Some (col_set s (d_v1 s) (d_v2 s) (d_cc s) (d_sc s) (d_sb2 s) (d_cp1 s - d_bfb s) (d_cp2 s),
          c1 =? d_v1 s)
  else Some (s, c1 =? d_v1 s).

(** newcolumntable.h 271-320: the part of moveto that looks for the second value. *)
Definition col_moveto2 (s : col_st) (c2 : Z) (search : bool) : option col_st :=
  if search && (d_v2 s <? c2) then
    do s1 <- (if d_v2 s =? -1 then
                do a <- rdn (d_b1 s) (d_mem s) (d_cp1 s);
                let p := d_cp1 s + Z.of_nat (d_b1 s) in
                do n <- rdn (d_bc s) (d_mem s) p;
                Some (col_set s a (d_v2 s) n (d_sc s) (d_sb2 s)
                        (p + (Z.of_nat (d_bc s) + Z.of_nat (d_bo s))) (d_cp2 s))
              else Some s);
    let e := d_sb2 s1 + d_cc s1 * d_z2 s in
    do (p, r) <- col_bsearch (FU (d_mem s)) (d_b2 s) (d_z2 s) (d_mem s) (d_cp2 s1) e (u64 c2);
    match r with
    | Some mid =>
      Some (col_set s1 (d_v1 s1) (d_v2 s1) (d_cc s1) (Z.quot (mid - d_sb2 s1) (d_z2 s))
              (d_sb2 s1) (d_cp1 s1) mid)
    | None =>
      let '(sc, cp2) := if e <=? p then (d_cc s1, e)
                        else (Z.quot (p - d_sb2 s1) (d_z2 s), p) in
      Some (col_set s1 (d_v1 s1) (if cp2 =? d_end s then 0 else d_v2 s1) (d_cc s1) sc (d_sb2 s1)
              (d_cp1 s1) cp2)
    end
  else if negb (d_v2 s =? -1) then
    Some (col_set s (d_v1 s) (d_v2 s) (d_cc s) (d_sc s - 1) (d_sb2 s) (d_cp1 s) (d_cp2 s - d_z2 s))
  else Some s.

(** newcolumntable.h 198-321, moveto, in a build without DEBUG. *)
Definition col_moveto (s : col_st) (c1 c2 : Z) : option col_st :=
  if negb (col_hasNext s) &&
     ((d_v1 s <? c1) || (negb (d_ign s) && (c1 =? d_v1 s) && (d_v2 s <? c2)))
  then Some s
  else
    do (s1, search) <- col_moveto1 s c1;
    if negb (d_ign s) then col_moveto2 s1 c2 search else Some s1.

(** newcolumntable.h 326-354, mark and reset. *)
Definition col_mark (s : col_st) : col_st :=
  mkCol (d_b1 s) (d_b2 s) (d_bc s) (d_bo s) (d_mem s) (d_v1 s) (d_v2 s) (d_nTerms s) (d_nUniq s)
    (d_cc s) (d_sc s) (d_end s) (d_sp1 s) (d_sp2 s) (d_sb2 s) (d_cp1 s) (d_cp2 s) (d_ign s)
    (d_v1 s, d_cp1 s, d_cc s, d_sc s, d_sb2 s, d_v2 s, d_cp2 s) (d_key s).
Definition col_reset (s : col_st) : col_st :=
  let '(v1, cp1, cc, sc, sb2, v2, cp2) := d_saved s in col_set s v1 v2 cc sc sb2 cp1 cp2.

(** newcolumntable.h 356-361, getCount; 363-369, ignoreSecondColumn. *)
Definition col_getCount (s : col_st) : Z := if d_ign s then d_cc s else 1.
Definition col_ignore (s : col_st) : col_st :=
  mkCol (d_b1 s) (d_b2 s) (d_bc s) (d_bo s) (d_mem s) (d_v1 s) (d_v2 s) (d_nTerms s) (d_nUniq s)
    (d_cc s) (if negb (d_v1 s =? -1) then d_cc s else d_sc s)
    (d_end s) (d_sp1 s) (d_sp2 s) (d_sb2 s) (d_cp1 s) (d_cp2 s) true (d_saved s) (d_key s).
Definition col_setKey (s : col_st) (k : Z) : col_st :=
  mkCol (d_b1 s) (d_b2 s) (d_bc s) (d_bo s) (d_mem s) (d_v1 s) (d_v2 s) (d_nTerms s) (d_nUniq s)
    (d_cc s) (d_sc s) (d_end s) (d_sp1 s) (d_sp2 s) (d_sb2 s) (d_cp1 s) (d_cp2 s) (d_ign s)
    (d_saved s) k.

(** newcolumntable.h 130-136, getCardinality. *)
Definition col_getCardinality (s : col_st) : Z := if d_ign s then d_nUniq s else d_nTerms s.

(** "Make it fail", newcolumntable.h 427-429 and 460-462. *)
Definition col_fail (s : col_st) : col_st :=
  col_set s (d_v1 s) (d_v2 s) (d_cc s) (d_sc s) (d_sb2 s) (d_sp2 s) (d_end s).

(** newcolumntable.h 408-437, setup(c1, s, e). *)
Definition col_setup1 (m : mem) (k c1 s e : Z) : option col_st :=
  do s0 <- col_setup m k s e;
  if col_hasNext s0 then
    do s1 <- col_next s0;
    do s2 <- col_moveto s1 c1 0;
    if col_hasNext s2 then
      do s3 <- col_next s2;
      if d_v1 s3 =? c1 then
        Some (mkCol (d_b1 s3) (d_b2 s3) (d_bc s3) (d_bo s3) m (d_v1 s3) (d_v2 s3)
                (d_cc s3) 1 (d_cc s3) (d_sc s3)
                (d_sb2 s3 + d_cc s3 * d_z2 s3)
                (d_cp1 s3 - d_bfb s3) (d_cp1 s3) (d_sb2 s3)
                (d_cp1 s3 - d_bfb s3) (d_sb2 s3) (d_ign s3) (d_saved s3) (d_key s3))
      else Some (col_fail s3)
    else Some (col_fail s2)
  else Some s0.

(** newcolumntable.h 439-465, setup(c1, c2, s, e). *)
Definition col_setup2 (m : mem) (k c1 c2 s e : Z) : option col_st :=
  do s0 <- col_setup m k s e;
  if col_hasNext s0 then
    do s1 <- col_next s0;
    do s2 <- col_moveto s1 c1 c2;
    if col_hasNext s2 then
      do s3 <- col_next s2;
      if (d_v1 s3 =? c1) && (d_v2 s3 =? c2) then
        Some (mkCol (d_b1 s3) (d_b2 s3) (d_bc s3) (d_bo s3) m (d_v1 s3) (d_v2 s3)
                1 1 (d_cc s3) (d_sc s3 - 1)
                (d_cp2 s3) (d_sp1 s3) (d_sp2 s3) (d_sb2 s3)
                (d_sp2 s3) (d_cp2 s3 - d_z2 s3) (d_ign s3) (d_saved s3) (d_key s3))
      else Some (col_fail s3)
    else Some (col_fail s2)
  else Some s0.

CoFixpoint col_obj (s : col_st) : pitr := {|
  hasNext := Some (col_hasNext s, col_obj s);
  next := match col_next s with Some s' => Some (col_obj s') | None => None end;
  value1 := d_v1 s;
  value2 := d_v2 s;
  key := d_key s;
  getCount := Some (col_getCount s, col_obj s);
  moveto := fun c1 c2 => match col_moveto s c1 c2 with
                         | Some s' => Some (col_obj s') | None => None end;
  ignoreSecondColumn := Some (col_obj (col_ignore s));
  mark := Some (col_obj (col_mark s));
  reset := fun _ => Some (col_obj (col_reset s));
  setKey := fun k => col_obj (col_setKey s k) |}.
