(** Binary tables: fixed-width fields, the row, cluster and column layouts, their writers
    and their readers.

    Memory is a list of bytes (integers 0..255) and a pointer is an offset in it; reading
    outside of the list is undefined behaviour and gives [None].  The byte encoders of
    kognac's Utils (encode_short, encode_int, encode_long, encode_longNBytes,
    decode_longFixedBytes, encode_vlong2, decode_vlong2, numBytesFixedLength) are not part
    of /repo; they are modelled here by what the readers in /repo require of them. *)
From Verif Require Export ItrModel.
Local Open Scope Z_scope.

Definition mem := list Z.

Definition getb (m : mem) (p : Z) : option Z :=
  if 0 <=? p then nth_error m (Z.to_nat p) else None.

(** Utils::encode_short/int/long/longNBytes (kognac): [w] bytes, most significant first. *)
Fixpoint enc (w : nat) (v : Z) : list Z :=
  match w with
  | O => []
  | S n => enc n (v / 256) ++ [v mod 256]
  end.

(** Utils::decode_longFixedBytes (kognac): [w] bytes, unsigned, most significant first. *)
Fixpoint rdn (w : nat) (m : mem) (p : Z) : option Z :=
  match w with
  | O => Some 0
  | S n => do a <- rdn n m p; do b <- getb m (p + Z.of_nat n); Some (a * 256 + b)
  end.

(** include/trident/binarytables/binarytablereaders.h 28-99: ByteReader, ShortReader,
    IntReader, LongIntReader and LongReader, by their size() 1, 2, 4, 5 and 8.  The first
    byte of LongIntReader (line 74) and LongReader (line 91) is a signed char, so these two
    are signed. *)
Definition rd (w : nat) (m : mem) (p : Z) : option Z :=
  do v <- rdn w m p;
  if (Nat.eqb w 5 || Nat.eqb w 8) && (2 ^ (8 * Z.of_nat w - 1) <=? v)
  then Some (v - 2 ^ (8 * Z.of_nat w))
  else Some v.

(** Utils::encode_vlong2, decode_vlong2 (kognac): 7 bits per byte, least significant first,
    high bit set on all bytes but the last. *)
Fixpoint encv (fuel : nat) (v : Z) : list Z :=
  match fuel with
  | O => []
  | S f => if v <? 128 then [v] else (v mod 128 + 128) :: encv f (v / 128)
  end.
Definition enc_vlong2 (v : Z) : list Z := encv 10 v.
Fixpoint decv (fuel : nat) (m : mem) (p : Z) : option (Z * Z) :=
  match fuel with
  | O => None
  | S f =>
    do b <- getb m p;
    if b <? 128 then Some (b, p + 1)
    else do (r, q) <- decv f m (p + 1); Some (b - 128 + 128 * r, q)
  end.
Definition dec_vlong2 (m : mem) (p : Z) : option (Z * Z) := decv 10 m p.

(** Utils::numBytesFixedLength (kognac): the least number of bytes that hold the value. *)
Fixpoint nbytes_ (fuel : nat) (v : Z) : nat :=
  match fuel with
  | O => 1%nat
  | S f => if v <? 256 then 1%nat else S (nbytes_ f (v / 256))
  end.
Definition nbytes (v : Z) : nat := nbytes_ 7 v.

(** Loops over a table make at most one turn per byte of memory. *)
Definition FU (m : mem) : nat := S (S (length m)).

(** The width codes 0..4 of src/trident/binarytables/newrowtableinserter.cpp 34-70 and
    newclustertableinserter.cpp 59-91 stand for these numbers of bytes. *)
Definition width_of_code (c : Z) : nat :=
  if c =? 0 then 1%nat else if c =? 1 then 2%nat else if c =? 2 then 4%nat
  else if c =? 3 then 5%nat else 8%nat.

(** ** Row layout. *)

(** newrowtableinserter.cpp 28-31, append; 25-26 and 33-34, startAppend and stopAppend, do
    nothing. *)
Definition row_append (w1 w2 : nat) (out : list Z) (t : Z * Z) : list Z :=
  out ++ enc w1 (fst t) ++ enc w2 (snd t).
Definition row_write (w1 w2 : nat) (l : list (Z * Z)) : list Z :=
  fold_left (row_append w1 w2) l [].

(** include/trident/binarytables/newrowtable.h 34-48; w1 and w2 are Reader1::size() and
    Reader2::size(); r_key is PairItr::key. *)
Record row_st := mkRow {
  r_w1 : nat; r_w2 : nat; r_mem : mem;
  r_start : Z; r_cur : Z; r_end : Z;
  r_v1 : Z; r_v2 : Z; r_count : Z; r_ign : bool;
  r_mark : Z; r_key : Z
}.
Definition bsz (w1 w2 : nat) : Z := Z.of_nat w1 + Z.of_nat w2.
Definition r_bs (s : row_st) : Z := bsz (r_w1 s) (r_w2 s).

(** newrowtable.h 155-163, setup.  currentMark is not initialised. *)
Definition row_setup (w1 w2 : nat) (m : mem) (k s e : Z) : row_st :=
  mkRow w1 w2 m s s e (-1) (-1) 1 false 0 k.

(** newrowtable.h 150-153, hasNext. *)
Definition row_hasNext (s : row_st) : bool := r_cur s <? r_end s.

(** newrowtable.h 111-114 ([strict] = false) and 302-305 ([strict] = true): skip and count
    the rows whose first value is v. *)
Fixpoint row_run (fuel : nat) (strict : bool) (w1 : nat) (bs : Z) (m : mem) (c e v n : Z)
  : option (Z * Z) :=
  match fuel with
  | O => None
  | S f =>
    if (if strict then c <? e else negb (c =? e)) then
      do x <- rd w1 m c;
      if x =? v then row_run f strict w1 bs m (c + bs) e v (n + 1) else Some (c, n)
    else Some (c, n)
  end.

(** newrowtable.h 103-122, next.  (124-148, next with three references, computes the
    same.) *)
Definition row_next (s : row_st) : option row_st :=
  do a <- rd (r_w1 s) (r_mem s) (r_cur s);
  if r_ign s then
    do (c, n) <- row_run (FU (r_mem s)) false (r_w1 s) (r_bs s) (r_mem s)
                   (r_cur s + r_bs s) (r_end s) a 1;
    Some (mkRow (r_w1 s) (r_w2 s) (r_mem s) (r_start s) c (r_end s) a (r_v2 s) n (r_ign s)
            (r_mark s) (r_key s))
  else
    do b <- rd (r_w2 s) (r_mem s) (r_cur s + Z.of_nat (r_w1 s));
    Some (mkRow (r_w1 s) (r_w2 s) (r_mem s) (r_start s)
            (r_cur s + Z.of_nat (r_w1 s) + Z.of_nat (r_w2 s)) (r_end s) a b
            (r_count s) (r_ign s) (r_mark s) (r_key s)).

(** newrowtable.h 174-187 (and 221-234): halve the range while it has more than 64 rows. *)
Fixpoint row_halve (fuel : nat) (w1 : nat) (bs : Z) (m : mem) (startS endS nrows c1 : Z)
  : option Z :=
  match fuel with
  | O => None
  | S f =>
    if 64 <? nrows then
      let middle := startS + (nrows / 2) * bs in
      do v <- rd w1 m middle;
      let startS' := if v <? c1 then middle else startS in
      let endS' := if v <? c1 then endS else middle - bs in
      row_halve f w1 bs m startS' endS' (Z.quot (endS' - startS') bs) c1
    else Some startS
  end.

(** newrowtable.h 188-190 (and 235-237): step back over rows equal to c1. *)
Fixpoint row_back (fuel : nat) (w1 : nat) (bs : Z) (m : mem) (startS s c1 : Z) : option Z :=
  match fuel with
  | O => None
  | S f =>
    if s <? startS then
      do v <- rd w1 m startS;
      if v =? c1 then row_back f w1 bs m (startS - bs) s c1 else Some startS
    else Some startS
  end.

(** newrowtable.h 167-192 (and 214-239). *)
Definition row_bsearch (w1 : nat) (bs : Z) (m : mem) (s e c1 : Z) : option Z :=
  let nrows := Z.quot (e - s) bs in
  if 64 <? nrows then
    do st <- row_halve (FU m) w1 bs m s e nrows c1;
    row_back (FU m) w1 bs m st s c1
  else Some s.

(** newrowtable.h 194-197: forward scan to the first row not before c1 (or the last row). *)
Fixpoint row_fwd1 (fuel : nat) (w1 : nat) (bs : Z) (m : mem) (s e v c1 : Z) : option (Z * Z) :=
  match fuel with
  | O => None
  | S f =>
    if (v <? c1) && (s + bs <? e) then
      do v' <- rd w1 m (s + bs); row_fwd1 f w1 bs m (s + bs) e v' c1
    else Some (s, v)
  end.

(** newrowtable.h 203-207: end of the run of rows equal to c1. *)
Fixpoint row_endrun (fuel : nat) (w1 : nat) (bs : Z) (m : mem) (ne e c1 : Z) : option Z :=
  match fuel with
  | O => None
  | S f =>
    if ne <? e then
      do v <- rd w1 m ne;
      if v =? c1 then row_endrun f w1 bs m (ne + bs) e c1 else Some ne
    else Some ne
  end.

(** newrowtable.h 165-210, setup(c1, s, e). *)
Definition row_setup1 (w1 w2 : nat) (m : mem) (k c1 s e : Z) : option row_st :=
  let bs := bsz w1 w2 in
  do s1 <- row_bsearch w1 bs m s e c1;
  do v0 <- rd w1 m s1;
  do (s2, v) <- row_fwd1 (FU m) w1 bs m s1 e v0 c1;
  if v =? c1 then
    do ne <- row_endrun (FU m) w1 bs m (s2 + bs) e c1;
    Some (row_setup w1 w2 m k s2 ne)
  else Some (row_setup w1 w2 m k s2 s2).

(** newrowtable.h 242-246: forward scan on both values; reads the row at e as well. *)
Fixpoint row_fwd2 (fuel : nat) (w1 w2 : nat) (m : mem) (s e v1 v2 c1 c2 : Z)
  : option (Z * Z * Z) :=
  match fuel with
  | O => None
  | S f =>
    if ((v1 <? c1) || ((v1 =? c1) && (v2 <? c2))) && (s <? e) then
      let s' := s + bsz w1 w2 in
      do a <- rd w1 m s';
      do b <- rd w2 m (s' + Z.of_nat w1);
      row_fwd2 f w1 w2 m s' e a b c1 c2
    else Some (s, v1, v2)
  end.

(** newrowtable.h 212-251, setup(c1, c2, s, e). *)
Definition row_setup2 (w1 w2 : nat) (m : mem) (k c1 c2 s e : Z) : option row_st :=
  let bs := bsz w1 w2 in
  do s1 <- row_bsearch w1 bs m s e c1;
  do a <- rd w1 m s1;
  do b <- rd w2 m (s1 + Z.of_nat w1);
  do (s2, v1, v2) <- row_fwd2 (FU m) w1 w2 m s1 e a b c1 c2;
  if (v1 =? c1) && (v2 =? c2) && (s2 <? e) then Some (row_setup w1 w2 m k s2 (s2 + bs))
  else Some (row_setup w1 w2 m k s2 s2).

(** newrowtable.h 267-273. *)
Fixpoint row_mv1 (fuel : nat) (w1 : nat) (bs : Z) (m : mem) (c e c1 last : Z) : option (Z * Z) :=
  match fuel with
  | O => None
  | S f =>
    if negb (c =? e) then
      do v <- rd w1 m c;
      if c1 <=? v then Some (c, v) else row_mv1 f w1 bs m (c + bs) e c1 v
    else Some (c, last)
  end.

(** newrowtable.h 278-281. *)
Fixpoint row_mv2 (fuel : nat) (w1 w2 : nat) (m : mem) (c e a c2 : Z) : option Z :=
  match fuel with
  | O => None
  | S f =>
    if negb (c =? e) then
      do v <- rd w1 m c;
      if v =? a then
        do v2 <- rd w2 m (c + Z.of_nat w1);
        if v2 <? c2 then row_mv2 f w1 w2 m (c + bsz w1 w2) e a c2 else Some c
      else Some c
    else Some c
  end.

Definition row_at (s : row_st) (c : Z) : row_st :=
  mkRow (r_w1 s) (r_w2 s) (r_mem s) (r_start s) c (r_end s) (r_v1 s) (r_v2 s) (r_count s)
    (r_ign s) (r_mark s) (r_key s).

(** newrowtable.h 257-288, moveto (the assertions are preconditions). *)
Definition row_moveto (s : row_st) (c1 c2 : Z) : option row_st :=
  let beyond := (r_v1 s <? c1) ||
                (negb (r_ign s) && (c1 =? r_v1 s) && (r_v2 s <? c2)) in
  if negb (row_hasNext s) && beyond then Some s
  else if beyond then
    do (c, v) <- row_mv1 (FU (r_mem s)) (r_w1 s) (r_bs s) (r_mem s) (r_cur s) (r_end s) c1 (-1);
    if (0 <? c2) && negb (c =? r_end s) && (v =? c1) then
      do a <- rd (r_w1 s) (r_mem s) c;
      do c' <- row_mv2 (FU (r_mem s)) (r_w1 s) (r_w2 s) (r_mem s) c (r_end s) a c2;
      Some (row_at s c')
    else Some (row_at s c)
  else Some (row_at s (r_cur s - r_bs s)).

(** newrowtable.h 290-296, mark and reset. *)
Definition row_mark (s : row_st) : row_st :=
  mkRow (r_w1 s) (r_w2 s) (r_mem s) (r_start s) (r_cur s) (r_end s) (r_v1 s) (r_v2 s)
    (r_count s) (r_ign s) (r_cur s) (r_key s).
Definition row_reset (s : row_st) : row_st := row_at s (r_mark s).

(** newrowtable.h 298-307, ignoreSecondColumn. *)
Definition row_ignore (s : row_st) : option row_st :=
  do (c, n) <- (if negb (r_v1 s =? -1)
                then row_run (FU (r_mem s)) true (r_w1 s) (r_bs s) (r_mem s) (r_cur s) (r_end s)
                       (r_v1 s) (r_count s)
                else Some (r_cur s, r_count s));
  Some (mkRow (r_w1 s) (r_w2 s) (r_mem s) (r_start s) c (r_end s) (r_v1 s) (r_v2 s) n true
          (r_mark s) (r_key s)).

Definition row_setKey (s : row_st) (k : Z) : row_st :=
  mkRow (r_w1 s) (r_w2 s) (r_mem s) (r_start s) (r_cur s) (r_end s) (r_v1 s) (r_v2 s)
    (r_count s) (r_ign s) (r_mark s) k.

(** newrowtable.h 79-88: count the changes of the first value up to the end. *)
Fixpoint row_card (fuel : nat) (w1 : nat) (bs : Z) (m : mem) (c e prev v1 n : Z)
  : option (Z * Z * Z) :=
  match fuel with
  | O => None
  | S f =>
    if negb (c =? e) then
      do v <- rd w1 m c;
      if v =? prev then row_card f w1 bs m (c + bs) e prev v n
      else row_card f w1 bs m (c + bs) e v v (n + 1)
    else Some (c, v1, n)
  end.

(** newrowtable.h 73-93, getCardinality. *)
Definition row_getCardinality (s : row_st) : option (Z * row_st) :=
  if r_ign s then
    let n0 := if negb (r_v1 s =? -1) then 1 else 0 in
    do (c, v1, n) <- row_card (FU (r_mem s)) (r_w1 s) (r_bs s) (r_mem s) (r_cur s) (r_end s)
                       (r_v1 s) (r_v1 s) n0;
    Some (n, mkRow (r_w1 s) (r_w2 s) (r_mem s) (r_start s) c (r_end s) v1 (r_v2 s)
               (r_count s) (r_ign s) (r_mark s) (r_key s))
  else Some (Z.quot (r_end s - r_start s) (r_bs s), s).

(** The object. *)
CoFixpoint row_obj (s : row_st) : pitr := {|
  hasNext := Some (row_hasNext s, row_obj s);
  next := match row_next s with Some s' => Some (row_obj s') | None => None end;
  value1 := r_v1 s;
  value2 := r_v2 s;
  key := r_key s;
  getCount := Some (r_count s, row_obj s);
  moveto := fun c1 c2 => match row_moveto s c1 c2 with
                         | Some s' => Some (row_obj s') | None => None end;
  ignoreSecondColumn := match row_ignore s with Some s' => Some (row_obj s') | None => None end;
  mark := Some (row_obj (row_mark s));
  reset := fun _ => Some (row_obj (row_reset s));
  setKey := fun k => row_obj (row_setKey s k) |}.

(** ** Cluster layout. *)

(** newclustertableinserter.cpp 43-57, writeGroup; wc is countsize. *)
Definition cl_writeGroup (w1 w2 wc : nat) (prevt1 : Z) (v2 : list Z) : list Z :=
  match v2 with
  | [] => []
  | _ => enc w1 prevt1 ++ enc wc (Z.of_nat (length v2)) ++ flat_map (enc w2) v2
  end.
(** newclustertableinserter.cpp 30-37, append: state is (output, prevt1, v2). *)
Definition cl_append (w1 w2 wc : nat) (st : list Z * Z * list Z) (t : Z * Z)
  : list Z * Z * list Z :=
  let '(out, prevt1, v2) := st in
  if negb (fst t =? prevt1)
  then (out ++ cl_writeGroup w1 w2 wc prevt1 v2, fst t, [snd t])
  else (out, prevt1, v2 ++ [snd t]).
(** newclustertableinserter.cpp 25-28 startAppend, 39-41 stopAppend. *)
Definition cl_write (w1 w2 wc : nat) (l : list (Z * Z)) : list Z :=
  let '(out, prevt1, v2) := fold_left (cl_append w1 w2 wc) l ([], -1, []) in
  out ++ cl_writeGroup w1 w2 wc prevt1 v2.

(** include/trident/binarytables/newclustertable.h 34-48. *)
Record cl_st := mkCl {
  k_w1 : nat; k_w2 : nat; k_wc : nat; k_mem : mem;
  k_start : Z; k_cur : Z; k_end : Z;
  k_v1 : Z; k_v2 : Z; k_count : Z; k_cg : Z; k_ign : bool;
  k_saved : Z * Z * Z * Z * Z;     (* m_current, m_currentValue1/2, m_count, m_countgroup *)
  k_key : Z
}.
Definition k_z1 s := Z.of_nat (k_w1 s).
Definition k_z2 s := Z.of_nat (k_w2 s).
Definition k_zc s := Z.of_nat (k_wc s).

(** newclustertable.h 161-170, setup.  m_* are not initialised. *)
Definition cl_setup (w1 w2 wc : nat) (m : mem) (k s e : Z) : cl_st :=
  mkCl w1 w2 wc m s s e (-1) (-1) 0 0 false (0, 0, 0, 0, 0) k.

Definition cl_set (s : cl_st) (cur v1 v2 count cg : Z) : cl_st :=
  mkCl (k_w1 s) (k_w2 s) (k_wc s) (k_mem s) (k_start s) cur (k_end s) v1 v2 count cg (k_ign s)
    (k_saved s) (k_key s).

(** newclustertable.h 157-159, hasNext. *)
Definition cl_hasNext (s : cl_st) : bool := k_cur s <? k_end s.

(** newclustertable.h 105-128, next.  (130-155 computes the same when count is not
    negative.) *)
Definition cl_next (s : cl_st) : option cl_st :=
  if k_ign s then
    do a <- rd (k_w1 s) (k_mem s) (k_cur s);
    let c := k_cur s + k_z1 s in
    do n <- rd (k_wc s) (k_mem s) c;
    Some (cl_set s (c + (k_zc s + k_z2 s * n)) a (k_v2 s) n n)
  else if 0 <? k_count s then
    do b <- rd (k_w2 s) (k_mem s) (k_cur s);
    Some (cl_set s (k_cur s + k_z2 s) (k_v1 s) b (k_count s - 1) (k_cg s))
  else
    do a <- rd (k_w1 s) (k_mem s) (k_cur s);
    let c := k_cur s + k_z1 s in
    do n <- rd (k_wc s) (k_mem s) c;
    let c' := c + k_zc s in
    do b <- rd (k_w2 s) (k_mem s) c';
    Some (cl_set s (c' + k_z2 s) a b (n - 1) n).

(** newclustertable.h 174-187 (and 195-208): look for the group of c1 from s; [e] is the
    end of the table.  Returns the new (s, e). *)
Fixpoint cl_find (fuel : nat) (w1 w2 wc : nat) (m : mem) (c1 s e : Z) : option (Z * Z) :=
  match fuel with
  | O => None
  | S f =>
    if negb (s =? e) then
      do v1 <- rd w1 m s;
      do c <- rd wc m (s + Z.of_nat w1);
      let s' := s + Z.of_nat w1 + Z.of_nat wc + c * Z.of_nat w2 in
      if v1 =? c1 then Some (s, s')
      else if c1 <? v1 then Some (e, e)
      else cl_find f w1 w2 wc m c1 s' e
    else Some (s, e)
  end.

(** newclustertable.h 172-191, setup(c1, start, end). *)
Definition cl_setup1 (w1 w2 wc : nat) (m : mem) (k c1 start e : Z) : option cl_st :=
  do (s, e') <- cl_find (FU m) w1 w2 wc m c1 start e;
  Some (cl_setup w1 w2 wc m k s (if e' <? s then s else e')).

(** newclustertable.h 220-233 (and 306-319): binary search of c2 among the second values in
    [s,e).  The result is (s, e, position if found). *)
Fixpoint cl_bsearch (fuel : nat) (w2 : nat) (m : mem) (s e c2 : Z) : option (Z * Z * option Z) :=
  match fuel with
  | O => None
  | S f =>
    if s <? e then
      let mid := s + Z.shiftr (Z.quot (e - s) (Z.of_nat w2)) 1 * Z.of_nat w2 in
      do vm <- rd w2 m mid;
      if vm <? c2 then cl_bsearch f w2 m (mid + Z.of_nat w2) e c2
      else if c2 <? vm then cl_bsearch f w2 m s mid c2
      else Some (s, e, Some mid)
    else Some (s, e, None)
  end.

(** newclustertable.h 193-241, setup(c1, c2, start, end).  Line 239 uses the parameter end. *)
Definition cl_setup2 (w1 w2 wc : nat) (m : mem) (k c1 c2 start e : Z) : option cl_st :=
  do (s, e0) <- cl_find (FU m) w1 w2 wc m c1 start e;
  let e' := if e0 <? s then s else e0 in
  let st := cl_setup w1 w2 wc m k s e' in
  if s <? e' then
    let cur := s + Z.of_nat w1 in
    do n <- rd wc m cur;
    let cur := cur + Z.of_nat wc in
    do (_, _, r) <- cl_bsearch (FU m) w2 m (s + Z.of_nat w1 + Z.of_nat wc) e' c2;
    let cur := match r with Some p => p | None => cur end in
    do v2 <- rd w2 m cur;
    if v2 =? c2 then
      Some (mkCl w1 w2 wc m s cur (cur + Z.of_nat w2) c1 (-1) 1 1 false (0, 0, 0, 0, 0) k)
    else
      Some (mkCl w1 w2 wc m s e e' c1 (-1) n n false (0, 0, 0, 0, 0) k)
  else Some st.

(** newclustertable.h 277-285: skip whole groups before c1. *)
Fixpoint cl_skip (fuel : nat) (w1 w2 wc : nat) (m : mem) (c e c1 term : Z) : option (Z * Z) :=
  match fuel with
  | O => None
  | S f =>
    if negb (c =? e) then
      do t <- rd w1 m c;
      if c1 <=? t then Some (c, t)
      else
        do n <- rd wc m (c + Z.of_nat w1);
        cl_skip f w1 w2 wc m (c + Z.of_nat w1 + (Z.of_nat wc + n * Z.of_nat w2)) e c1 t
    else Some (c, term)
  end.

(** newclustertable.h 263-332, moveto. *)
Definition cl_moveto (s : cl_st) (c1 c2 : Z) : option cl_st :=
  if negb (cl_hasNext s) &&
     ((k_v1 s <? c1) || (negb (k_ign s) && (k_v1 s =? c1) && (k_v2 s <? c2)))
  then Some s
  else
    do (s1, term) <-
      (if k_v1 s <? c1 then
         let c := if negb (k_count s =? 0) && negb (k_ign s)
                  then k_cur s + k_z2 s * k_count s else k_cur s in
         do (c', t) <- cl_skip (FU (k_mem s)) (k_w1 s) (k_w2 s) (k_wc s) (k_mem s) c (k_end s)
                         c1 (k_v1 s);
         Some (cl_set s c' (k_v1 s) (-1) 0 0, t)
       else Some (s, k_v1 s));
    if k_ign s then
      if c1 <=? k_v1 s then
        Some (cl_set s1 (k_cur s1 - (k_z1 s + k_zc s + k_cg s1 * k_z2 s)) (k_v1 s1) (k_v2 s1)
                (k_count s1) (k_cg s1))
      else Some s1
    else if term =? c1 then
      do s2 <- (if k_cg s1 =? 0 then cl_next s1 else Some s1);
      if c2 <=? k_v2 s2 then
        Some (cl_set s2 (k_cur s2 - k_z2 s) (k_v1 s2) (k_v2 s2) (k_count s2 + 1) (k_cg s2))
      else
        let e := k_cur s2 + k_count s2 * k_z2 s in
        do (c, _, r) <- cl_bsearch (FU (k_mem s)) (k_w2 s) (k_mem s) (k_cur s2) e c2;
        let c' := match r with Some p => p | None => c end in
        Some (cl_set s2 c' (k_v1 s2) (k_v2 s2) (Z.quot (e - c') (k_z2 s)) (k_cg s2))
    else if k_v2 s1 =? -1 then Some s1
    else Some (cl_set s1 (k_cur s1 - k_z2 s) (k_v1 s1) (k_v2 s1) (k_count s1 + 1) (k_cg s1)).

(** newclustertable.h 334-348, mark and reset. *)
Definition cl_mark (s : cl_st) : cl_st :=
  mkCl (k_w1 s) (k_w2 s) (k_wc s) (k_mem s) (k_start s) (k_cur s) (k_end s) (k_v1 s) (k_v2 s)
    (k_count s) (k_cg s) (k_ign s) (k_cur s, k_v1 s, k_v2 s, k_count s, k_cg s) (k_key s).
Definition cl_reset (s : cl_st) : cl_st :=
  let '(c, v1, v2, n, g) := k_saved s in cl_set s c v1 v2 n g.

(** newclustertable.h 350-357, ignoreSecondColumn. *)
Definition cl_ignore (s : cl_st) : cl_st :=
  let s1 := if negb (k_v1 s =? -1)
            then cl_set s (k_cur s + k_z2 s * k_count s) (k_v1 s) (k_v2 s) 0 (k_cg s) else s in
  mkCl (k_w1 s1) (k_w2 s1) (k_wc s1) (k_mem s1) (k_start s1) (k_cur s1) (k_end s1) (k_v1 s1)
    (k_v2 s1) (k_count s1) (k_cg s1) true (k_saved s1) (k_key s1).

(** newclustertable.h 359-365, getCount. *)
Definition cl_getCount (s : cl_st) : Z := if k_ign s then k_cg s else 1.

Definition cl_setKey (s : cl_st) (k : Z) : cl_st :=
  mkCl (k_w1 s) (k_w2 s) (k_wc s) (k_mem s) (k_start s) (k_cur s) (k_end s) (k_v1 s) (k_v2 s)
    (k_count s) (k_cg s) (k_ign s) (k_saved s) k.

(** newclustertable.h 79-86: sum of the group counters, number of groups, last counter. *)
Fixpoint cl_card (fuel : nat) (w1 w2 wc : nat) (m : mem) (s e sum nels last : Z)
  : option (Z * Z * Z) :=
  match fuel with
  | O => None
  | S f =>
    if negb (s =? e) then
      do c <- rd wc m (s + Z.of_nat w1);
      cl_card f w1 w2 wc m (s + Z.of_nat w1 + (Z.of_nat wc + Z.of_nat w2 * c)) e
        (sum + c) (nels + 1) c
    else Some (sum, nels, last)
  end.

(** newclustertable.h 74-92, getCardinality; it overwrites count and countgroup. *)
Definition cl_getCardinality (s : cl_st) : option (Z * cl_st) :=
  do (sum, nels, last) <- cl_card (FU (k_mem s)) (k_w1 s) (k_w2 s) (k_wc s) (k_mem s)
                            (k_start s) (k_end s) 0 0 (-1);
  let s' := if nels =? 0 then s else cl_set s (k_cur s) (k_v1 s) (k_v2 s) last last in
  Some (if k_ign s then nels else sum, s').

CoFixpoint cl_obj (s : cl_st) : pitr := {|
  hasNext := Some (cl_hasNext s, cl_obj s);
  next := match cl_next s with Some s' => Some (cl_obj s') | None => None end;
  value1 := k_v1 s;
  value2 := k_v2 s;
  key := k_key s;
  getCount := Some (cl_getCount s, cl_obj s);
  moveto := fun c1 c2 => match cl_moveto s c1 c2 with
                         | Some s' => Some (cl_obj s') | None => None end;
  ignoreSecondColumn := Some (cl_obj (cl_ignore s));
  mark := Some (cl_obj (cl_mark s));
  reset := fun _ => Some (cl_obj (cl_reset s));
  setKey := fun k => cl_obj (cl_setKey s k) |}.
