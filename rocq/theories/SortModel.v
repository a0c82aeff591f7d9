(** Sorting the input of each permutation: the records of src/trident/kb/permsorter.cpp, the chunks,
    the files, and the merging of the files in src/trident/kb/loader.cpp. *)
From Coq Require Import List ZArith Bool Arith.
Import ListNotations.
From Verif Require Import ItrModel QueryModel FileModel InserterModel NodeModel.
Local Open Scope Z_scope.

(** ** Records *)

(** permsorter.cpp 61-67, writeTermInBuffer: the five bytes. *)
Definition wterm (n : Z) : list Z :=
  [Z.land (Z.shiftr n 32) 255; Z.land (Z.shiftr n 24) 255; Z.land (Z.shiftr n 16) 255;
   Z.land (Z.shiftr n 8) 255; Z.land n 255].
(** permsorter.cpp 69-78, write8TermInBuffer. *)
Definition wterm8 (n : Z) : list Z :=
  [Z.land (Z.shiftr n 56) 255; Z.land (Z.shiftr n 48) 255; Z.land (Z.shiftr n 40) 255;
   Z.land (Z.shiftr n 32) 255; Z.land (Z.shiftr n 24) 255; Z.land (Z.shiftr n 16) 255;
   Z.land (Z.shiftr n 8) 255; Z.land n 255].
(** permsorter.cpp 80-101, readTermFromBuffer and read8TermFromBuffer, of [w] bytes from [p];
    a byte that is not there is 0 (the records have the right length). *)
Fixpoint rterm (w : nat) (b : list Z) (p : nat) (acc : Z) : Z :=
  match w with
  | O => acc
  | S w => rterm w b (S p) (acc + Z.shiftl (Z.land (nth p b 0) 255) (8 * Z.of_nat w))
  end.

(** Size of a record (permsorter.cpp 172). *)
Definition rsize (ic : bool) : nat := if ic then 23%nat else 15%nat.

(** permsorter.cpp 484-500, in sortChunks2_load, and 545-560, in sortChunks2_fill: the record of
    the numbers that are read; [ic] is includeCount. *)
Definition rec_of (ic : bool) (q : quad) : list Z :=
  let '(s, p, o, c) := q in
  wterm s ++ wterm p ++ (if ic then wterm8 o ++ wterm c else wterm o).
(** permsorter.cpp 104-133, dumpPermutation_seq: the triple that is written for a record.  A
    triple without a count has the count 0 (Triple of Kognac). *)
Definition of_rec (ic : bool) (b : list Z) : quad :=
  if ic then (rterm 5 b 0 0, rterm 5 b 5 0, rterm 8 b 10 0, rterm 5 b 18 0)
  else (rterm 5 b 0 0, rterm 5 b 5 0, rterm 5 b 10 0, 0).

(** permsorter.cpp 32-43: std::array<unsigned char, n> is compared byte by byte. *)
Fixpoint bytes_lt (a b : list Z) : bool :=
  match a, b with
  | x :: a', y :: b' => (x <? y) || ((x =? y) && bytes_lt a' b')
  | [], _ :: _ => true
  | _, [] => false
  end.

(** std::sort and std::inplace_merge of the standard library, with [lt]; equal records are the
    same bytes, so every sorting function gives the same list. *)
Fixpoint ins_sorted (lt : list Z -> list Z -> bool) (x : list Z) (l : list (list Z)) : list (list Z) :=
  match l with
  | [] => [x]
  | y :: t => if lt y x then y :: ins_sorted lt x t else x :: l
  end.
Definition lib_sort (lt : list Z -> list Z -> bool) (l : list (list Z)) : list (list Z) :=
  fold_right (ins_sorted lt) [] l.
Fixpoint lib_merge {A} (lt : A -> A -> bool) (l1 l2 : list A) {struct l1} : list A :=
  let fix go l2 :=
    match l1, l2 with
    | [], _ => l2
    | _, [] => l1
    | x :: t1, y :: t2 => if lt y x then y :: go t2 else x :: lib_merge lt t1 l2
    end in go l2.

(** include/trident/utils/parallel.h 94-107, sort_int: two halves in two threads, which do not share
    memory, then the merge.  The recursion ends because the number of threads is halved. *)
Fixpoint sort_int (fuel nthreads : nat) (l : list (list Z)) : list (list Z) :=
  match fuel with
  | O => lib_sort bytes_lt l
  | S fuel =>
    if Nat.leb (length l) 1024 || Nat.ltb nthreads 2 then lib_sort bytes_lt l
    else
      let mid := Nat.div (length l) 2 in
      lib_merge bytes_lt (sort_int fuel (Nat.div nthreads 2) (firstn mid l))
                         (sort_int fuel (Nat.div nthreads 2) (skipn mid l))
  end.
(** permsorter.cpp 45-59, sortPermutation. *)
Definition sort_perm (nthreads : nat) (l : list (list Z)) : list (list Z) := sort_int nthreads nthreads l.

(** permsorter.cpp 593-735, sortChunks2_permute, for one record.  Five bytes are copied at a time. *)
Definition permute1 (cur next : Z) (r : list Z) : list Z :=
  let a := firstn 5 r in let b := firstn 5 (skipn 5 r) in let c := firstn 5 (skipn 10 r) in
  let rest := skipn 15 r in
  let is x y := (cur =? x) && (next =? y) in
  if is IDX_SPO IDX_SOP || is IDX_SOP IDX_SPO || is IDX_OSP IDX_OPS || is IDX_OPS IDX_OSP
     || is IDX_POS IDX_PSO || is IDX_PSO IDX_POS then a ++ c ++ b ++ rest
  else if is IDX_SOP IDX_OSP || is IDX_OSP IDX_SOP || is IDX_OPS IDX_POS || is IDX_POS IDX_OPS
     || is IDX_SPO IDX_PSO || is IDX_PSO IDX_SPO then b ++ a ++ c ++ rest
  else if is IDX_SPO IDX_OPS || is IDX_OPS IDX_SPO || is IDX_OSP IDX_PSO || is IDX_PSO IDX_OSP
     || is IDX_POS IDX_SOP || is IDX_SOP IDX_POS then c ++ b ++ a ++ rest
  else if is IDX_SPO IDX_POS || is IDX_OPS IDX_PSO || is IDX_OSP IDX_SPO || is IDX_PSO IDX_SOP
     || is IDX_POS IDX_OSP || is IDX_SOP IDX_OPS then b ++ c ++ a ++ rest
  else c ++ a ++ b ++ rest.

(** ** The array of a round.  It is a list of records; all positions in the code are multiples of
    the size of a record.  Writing outside of it is undefined behaviour. *)
Definition put (arr : list (list Z)) (i : nat) (r : list Z) : option (list (list Z)) :=
  if Nat.ltb i (length arr) then Some (set_nth arr i r) else None.

(** permsorter.cpp 469-505, sortChunks2_load: reads [st] until it ends or [n] records are
    written.  Result: the array, what is left of the stream, the count. *)
Fixpoint load1 (ic : bool) (n : nat) (pos cnt : nat) (st : list quad) (arr : list (list Z))
  : option (list (list Z) * list quad * nat) :=
  match n, st with
  | S n, q :: t =>
    do arr1 <- put arr pos (rec_of ic q);
    load1 ic n (S pos) (S cnt) t arr1
  | _, _ => Some (arr, st, cnt)
  end.

(** permsorter.cpp 838-862: one thread for each part; they write different parts of the array.
    [lim i] is the number of records of part i, [mi] is maxInserts. *)
Fixpoint load_all (ic : bool) (mi : nat) (lim : nat -> nat) (i : nat) (sts : list (list quad)) (arr : list (list Z))
  : option (list (list Z) * list (list quad) * list nat) :=
  match sts with
  | [] => Some (arr, [], [])
  | st :: t =>
    do (r, cnt) <- load1 ic (lim i) (i * mi) 0 st arr;
    let (arr1, st1) := r in
    do (r2, cnts) <- load_all ic mi lim (S i) t arr1;
    let (arr2, sts2) := r2 in
    Some (arr2, st1 :: sts2, cnt :: cnts)
  end.

(** permsorter.cpp 518-526: the streams that have not ended.  The pair (reader, part) of a
    stream is given by the index of its thread. *)
Definition opened (sts : list (list quad)) : list nat :=
  filter (fun i => match nth i sts [] with [] => false | _ => true end) (seq 0 (length sts)).

Definition remove_nth {A} (i : nat) (l : list A) : list A := firstn i l ++ skipn (S i) l.

(** permsorter.cpp 539-572, the inner loop of sortChunks2_fill, for the part that starts at
    [start]; [n] records are free. *)
Fixpoint fill_part (ic : bool) (n start cnt idx : nat) (os : list nat) (sts : list (list quad)) (arr : list (list Z))
  : option (list (list Z) * list (list quad) * list nat * nat) :=
  match n with
  | O => Some (arr, sts, os, cnt)
  | S n =>
    if Nat.ltb idx (length os) then
      let i := nth idx os 0%nat in
      match nth i sts [] with
      | [] => None
      | q :: t =>
        do arr1 <- put arr (start + cnt) (rec_of ic q);
        let sts1 := set_nth sts i t in
        match t with
        | [] =>
          let os1 := remove_nth idx os in
          fill_part ic n start (S cnt) (if Nat.eqb idx (length os1) then 0 else idx)%nat os1 sts1 arr1
        | _ => fill_part ic n start (S cnt) (Nat.modulo (idx + 1) (length os)) os sts1 arr1
        end
      end
    else Some (arr, sts, os, cnt)
  end.
(** permsorter.cpp 527-576, the outer loop. *)
Fixpoint fill (fuel : nat) (ic : bool) (mi : nat) (lim : nat -> nat) (cur : nat) (os : list nat)
    (sts : list (list quad)) (cnts : list nat) (arr : list (list Z))
  : option (list (list Z) * list (list quad) * list nat) :=
  if Nat.ltb cur (length cnts) && negb (match os with [] => true | _ => false end) then
    match fuel with
    | O => None
    | S fuel =>
      let c := nth cur cnts 0%nat in
      if Nat.ltb c (lim cur) then
        do (r, c1) <- fill_part ic (lim cur - c) (cur * mi) c 0 os sts arr;
        let '(arr1, sts1, os1) := r in
        fill fuel ic mi lim cur os1 sts1 (set_nth cnts cur c1) arr1
      else fill fuel ic mi lim (S cur) os sts cnts arr
    end
  else Some (arr, sts, cnts).

(** permsorter.cpp 577-592: the records that are still free get the byte 1. *)
Fixpoint pad_part (ic : bool) (n pos : nat) (arr : list (list Z)) : option (list (list Z)) :=
  match n with
  | O => Some arr
  | S n => do arr1 <- put arr pos (repeat 1 (rsize ic)); pad_part ic n (S pos) arr1
  end.
Fixpoint pad (ic : bool) (mi : nat) (lim : nat -> nat) (i : nat) (cnts : list nat) (arr : list (list Z))
  : option (list (list Z)) :=
  match cnts with
  | [] => Some arr
  | c :: t => do arr1 <- pad_part ic (lim i - c) (i * mi + c) arr; pad ic mi lim (S i) t arr1
  end.

(** permsorter.cpp 145-210, dumpPermutation: the parts of the output, [n] records in [P] parts by
    [io] writers.  The last part ends with the records. *)
Fixpoint dump_parts (ic : bool) (arr : list (list Z)) (n chunk : nat) (k : nat) (from : nat) : list (list quad) :=
  match k with
  | O => []
  | S k =>
    let next := match k with O => n | _ => Nat.min (from + chunk) n end in
    map (of_rec ic) (firstn (next - from) (skipn from arr)) :: dump_parts ic arr n chunk k next
  end.
Definition dump (ic : bool) (P io : nat) (arr : list (list Z)) (n : nat) : option (list (list quad)) :=
  let ppw := Nat.div P io in
  if Nat.eqb io 0 || Nat.eqb ppw 0 || negb (Nat.ltb (Nat.div (P - 1) ppw) io) || Nat.ltb (length arr) n then None
  else Some (dump_parts ic arr n (Nat.max 1 (Nat.div n P)) P 0).

(** permsorter.cpp 893-926: the other permutations of the round. *)
Fixpoint other_perms (ic : bool) (P io : nat) (cur : Z) (perms : list Z) (n : nat) (arr : list (list Z))
  : option (list (list (list quad))) :=
  match perms with
  | [] => Some []
  | p :: t =>
    let arr1 := sort_perm P (map (permute1 cur p) (firstn n arr)) in
    do d <- dump ic P io arr1 n;
    do r <- other_perms ic P io p t n arr1;
    Some (d :: r)
  end.

(** permsorter.cpp 818-926, one round: the streams left, and for each permutation the parts. *)
Definition round (ic : bool) (P io mi lastmi : nat) (p0 : Z) (perms : list Z) (junk : list (list Z))
    (sts : list (list quad)) : option (list (list quad) * list (list (list quad))) :=
  let lim i := if Nat.eqb i (P - 1) then lastmi else mi in
  do (r, cnts) <- load_all ic mi lim 0 sts junk;
  let (arr, sts1) := r in
  do (r2, cnts2) <- fill (2 * P + 1) ic mi lim 0 (opened sts1) sts1 cnts arr;
  let (arr2, sts2) := r2 in
  do arr3 <- pad ic mi lim 0 cnts2 arr2;
  let n := list_sum cnts2 in
  let arr4 := sort_perm P arr3 in
  do d <- dump ic P io arr4 n;
  do r3 <- other_perms ic P io p0 perms n arr4;
  Some (sts2, d :: r3).

(** permsorter.cpp 815-930: rounds until all streams have ended.  [junk k] is what the array
    holds at the start of a round (at first not initialised, then what the last round left). *)
Fixpoint rounds (fuel : nat) (ic : bool) (P io mi lastmi : nat) (p0 : Z) (perms : list Z)
    (junk : nat -> list (list Z)) (k : nat) (sts : list (list quad)) : option (list (list (list (list quad)))) :=
  if forallb (fun st => match st with [] => true | _ => false end) sts then Some []
  else match fuel with
  | O => None
  | S fuel =>
    do (sts1, d) <- round ic P io mi lastmi p0 perms (junk k) sts;
    do r <- rounds fuel ic P io mi lastmi p0 perms junk (S k) sts1;
    Some (d :: r)
  end.

(** permsorter.cpp 766-771: the files, one after the other, to the inputs. *)
Fixpoint deal (P cur : nat) (files : list (list quad)) (inputs : list (list quad)) : list (list quad) :=
  match files with
  | [] => inputs
  | f :: t => deal P (Nat.modulo (cur + 1) P) t (set_nth inputs cur (nth cur inputs [] ++ f))
  end.

(** permsorter.cpp 772-793 and 822-823: reader r has the inputs r*fpr ... r*fpr+fpr-1; thread i
    reads part i / io of reader i % io.  A part that does not exist is undefined behaviour. *)
Definition streams (P io : nat) (inputs : list (list quad)) : option (list (list quad)) :=
  if Nat.eqb io 0 then None else
  let fpr := Nat.div P io in
  mapo (fun i => if Nat.ltb (Nat.div i io) fpr
                 then Some (nth (Nat.modulo i io * fpr + Nat.div i io) inputs []) else None) (seq 0 P).

(** permsorter.cpp 737-930, sortChunks2.  [files] are the numbers in the input files, [maxn] the
    number of records that fit in 60% of the memory, [est] estimatedSize; the array of a round
    starts with [junk k].  Result: for each round, for each permutation, the parts that are written.
    Simplifications: the reader of Kognac gives the numbers of its files one after the other; with
    includeCount the first byte of a file (794-806) is not part of the numbers. *)
Definition psize (nthreads : nat) (files : list (list quad)) : nat := Nat.max 1 (Nat.min (length files) nthreads).
Definition nelem (maxn est P : nat) : nat := Nat.max P (Nat.min maxn est).
Definition sort_chunks (ic : bool) (ionthreads nthreads maxn est : nat) (p0 : Z) (perms : list Z)
    (junk : nat -> list (list Z)) (files : list (list quad)) : option (list (list (list (list quad)))) :=
  let P := psize nthreads files in
  let ne := nelem maxn est P in
  let mi := Nat.max 1 (Nat.div ne P) in
  let lastmi := (mi + (ne - mi * P))%nat in
  let io := if Nat.ltb P nthreads then 1%nat else ionthreads in
  do sts <- streams P io (deal P 0 files (repeat [] P));
  rounds (S (length (concat sts))) ic P io mi lastmi p0 perms (fun k => firstn ne (junk k)) 0 sts.

(** The sorted files of permutation number k: one for each round; its parts are read one after the
    other (the extensions .0, .1, ... of a file). *)
Definition sorted_files (k : nat) (rs : list (list (list (list quad)))) : list (list quad) :=
  map (fun r => concat (nth k r [])) rs.

(** ** Merging *)

(** The order of triples of Kognac (Triple::less); the count is not compared. *)
Definition quad_lt (x y : quad) : bool :=
  let '(a, b, c, _) := x in let '(a', b', c', _) := y in
  (a <? a') || ((a =? a') && ((b <? b') || ((b =? b') && (c <? c')))).
(** FastFileMerger and FileMerger of Kognac: the smallest of the first triples of the files. *)
Definition kmerge (files : list (list quad)) : list quad := fold_right (lib_merge quad_lt) [] files.

(** loader.cpp 958-1023, mergeDiskFragments: one pass over the files, four at a time. *)
Fixpoint merge_pass (fuel : nat) (files : list (list quad)) : option (list (list quad)) :=
  match files with
  | [] => Some []
  | _ => match fuel with
         | O => None
         | S fuel => do r <- merge_pass fuel (skipn 4 files); Some (kmerge (firstn 4 files) :: r)
         end
  end.
Fixpoint fragments (fuel : nat) (files : list (list quad)) : option (list (list quad)) :=
  if Nat.leb (length files) 2 then Some files
  else match fuel with
       | O => None
       | S fuel => do r <- merge_pass (length files) files; fragments fuel r
       end.

(** loader.cpp 2508-2516, then 1048: the triples that Loader::insert gets for permutation number
    k of the list. *)
Definition sorted_input (k : nat) (rs : list (list (list (list quad)))) : option (list quad) :=
  do fs <- fragments (length (sorted_files k rs)) (sorted_files k rs);
  Some (kmerge fs).

(** ** Other permutations in blocks (createIndicesInBlocks) *)

(** loader.cpp 2066-2084, generateNewPermutation_seq. *)
Definition new_perm1 (pos0 pos1 pos2 : nat) (q : quad) : quad :=
  let '(s, p, o, _) := q in
  let t i := match i with O => s | S O => p | _ => o end in
  (t pos0, t pos1, t pos2, 0).
(** loader.cpp 2086-2150, generateNewPermutation: the files are given to the parts as above; part i
    becomes a file. *)
Definition new_perm (P io pos0 pos1 pos2 : nat) (files : list (list quad)) : option (list (list quad)) :=
  do sts <- streams P io (deal P 0 files (repeat [] P));
  Some (map (map (new_perm1 pos0 pos1 pos2)) sts).

(** The parameters of the loader that stay the same. *)
Record sorter := mkSorter { so_io : nat; so_threads : nat; so_max : nat; so_est : nat; so_junk : nat -> list (list Z) }.

(** loader.cpp 2508-2516 and 2537-2546, 2574-2585, 2612-2623, 2650-2663, 2729-2740: sort the
    files of one permutation and merge the fragments. *)
Definition sort_one (g : sorter) (p : Z) (files : list (list quad)) : option (list (list quad)) :=
  do rs <- sort_chunks false (so_io g) (so_threads g) (so_max g) (so_est g) p [] (so_junk g) files;
  fragments (length rs) (sorted_files 0 rs).

(** Where s, p and o are in the last sorted files. *)
Record poss := mkPoss { ps : nat; pp : nat; po : nat }.
(** loader.cpp 2535-2537/2566-2569, 2575/2605-2608, 2613/2643-2646, 2651/2719-2722, 2730: the
    arguments of generateNewPermutation and the positions afterwards. *)
Definition block_args (p : Z) (x : poss) : option (nat * nat * nat * poss) :=
  if p =? IDX_OPS then Some (po x, pp x, ps x, mkPoss 2 1 0)
  else if p =? IDX_SOP then Some (ps x, po x, pp x, mkPoss 0 2 1)
  else if p =? IDX_OSP then Some (po x, ps x, pp x, mkPoss 1 2 0)
  else if p =? IDX_POS then Some (pp x, po x, ps x, mkPoss 2 0 1)
  else if p =? IDX_PSO then Some (pp x, ps x, po x, x)
  else None.
(** loader.cpp 2464-2797, createIndices with createIndicesInBlocks and no aggregated indices: the
    triples that are inserted for each permutation of [perms] (OPS, SOP, OSP, POS, PSO, those that
    are wanted, in this order), from the sorted files of the permutation before. *)
Fixpoint blocks (g : sorter) (x : poss) (perms : list Z) (files : list (list quad)) : option (list (list quad)) :=
  match perms with
  | [] => Some []
  | p :: t =>
    do (a, x1) <- block_args p x;
    let '(a0, a1, a2) := a in
    do nf <- new_perm (so_threads g) (so_io g) a0 a1 a2 files;
    do fs <- sort_one g p nf;
    do r <- blocks g x1 t fs;
    Some (kmerge fs :: r)
  end.
Definition all_blocks (g : sorter) (perms : list Z) (files : list (list quad)) : option (list (list quad)) :=
  do fs <- sort_one g IDX_SPO files;
  do r <- blocks g (mkPoss 0 1 2) perms fs;
  Some (kmerge fs :: r).
