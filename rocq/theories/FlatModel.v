(** The flat tree: one record of fixed size for each term, src/trident/tree/flatroot.cpp. *)
From Verif Require Export StrategyModel FileModel TreeModel TreeSpec.
Local Open Scope Z_scope.

(** Conversion to short. *)
Definition to_short (v : Z) : Z := (v + 2 ^ 15) mod 2 ^ 16 - 2 ^ 15.

(** The [w] lowest bytes of an integer, as they lie in memory (little endian), and back. *)
Fixpoint le (w : nat) (v : Z) : list Z :=
  match w with O => [] | S n => v mod 256 :: le n (v / 256) end.
Fixpoint rdle (w : nat) (m : mem) (p : Z) : option Z :=
  match w with
  | O => Some 0
  | S n => do b <- getb m p; do r <- rdle n m (p + 1); Some (b + 256 * r)
  end.

(** The fields unlabeled and undirected (flatroot.h 21-24): a labelled graph (unlabeled is false),
    an unlabelled directed one, an unlabelled undirected one. *)
Inductive graph := Labelled | Directed | Undirected.
Definition unlabeled (g : graph) : bool := match g with Labelled => false | _ => true end.

(** flatroot.cpp 10-17, the constructor: sizeblock. *)
Definition sizeblock (g : graph) : Z :=
  match g with Undirected => 18 | Directed => 31 | Labelled => 83 end.

(** ** Looking up *)

(** flatroot.cpp 20-28, __set: [None] if a byte outside [m] is read, [Some None] if nothing is
    set.  The counts and positions are read with eight bytes and masked. *)
Definition fl_set (m : mem) (b : Z) : option (option coord) :=
  do w <- rdle 8 m b;
  let nels := w mod 2 ^ 40 in
  if 0 <? nels then
    do file <- rdle 2 m (b + 6);
    do w <- rdle 8 m (b + 8);
    do strat <- getb m (b + 5);
    Some (Some (mkCoord nels (to_char strat) (to_short file) (w mod 2 ^ 40)))
  else Some None.

(** The calls of __set in get (33-42): permutation and offset. *)
Definition fl_offsets (g : graph) : list (nat * Z) :=
  [(3%nat, 5)] ++ (match g with Undirected => [] | _ => [(4%nat, 18)] end) ++
  (match g with Labelled => [(0%nat, 31); (1%nat, 44); (2%nat, 57); (5%nat, 70)] | _ => [] end).
Fixpoint fl_sets (m : mem) (start : Z) (l : list (nat * Z)) (v : tc) : option tc :=
  match l with
  | [] => Some v
  | (i, off) :: r =>
    do c <- fl_set m (start + off);
    fl_sets m start r (match c with Some c => FileModel.upd v i (Some c) | None => v end)
  end.

(** flatroot.cpp 30-45, get: it always returns true.  [raw] is the file, [pad] what follows it in
    memory. *)
Definition fl_get (g : graph) (raw pad : mem) (key : Z) : option tc :=
  fl_sets (raw ++ pad) (key * sizeblock g) (fl_offsets g) (fun _ => None).

(** include/trident/tree/flattreeitr.h 21-43, hasNext and next until hasNext is false; [n] is the
    number of steps allowed. *)
Fixpoint fl_walk (n : nat) (g : graph) (raw pad : mem) (start idx : Z) : option (list (Z * tc)) :=
  if start <? zlen raw then
    match n with
    | O => None
    | S n =>
      do v <- fl_sets (raw ++ pad) start (fl_offsets g) (fun _ => None);
      do r <- fl_walk n g raw pad (start + sizeblock g) (idx + 1); Some ((idx, v) :: r)
    end
  else Some [].

(** ** Writing records *)

(** coord.exists(i) ? coord.getNElements(i) : 0 (flatroot.cpp 158-190). *)
Definition fl_n (v : tc) (i : nat) : Z := match v i with Some c => co_n c | None => 0 end.

(** The part of a record for one permutation (flatroot.cpp 459-481, 482-504, and likewise 559-712): if there are no elements only the
    count is set, and the other eight bytes are what was on the stack, [junk]. *)
Definition fl_block (junk : list Z) (n strat file pos : Z) : list Z :=
  if 0 <? n then le 5 n ++ [strat mod 256] ++ le 2 file ++ le 5 pos
  else [0; 0; 0; 0; 0] ++ junk.

(** flatroot.cpp 435-509 and 511-715, the two methods write: all coordinates but those of SOP are
    0.  [junk key i] are the bytes on the stack for permutation [i]. *)
Definition fl_record (g : graph) (junk : Z -> nat -> list Z) (key : Z) (v : tc) (strat file pos : Z) : list Z :=
  let part i := fl_block (junk key i) (fl_n v i) 0 0 0 in
  le 5 key ++ fl_block (junk key 3%nat) (fl_n v 3) strat file pos ++
  match g with
  | Undirected => []
  | Directed => part 4%nat
  | Labelled => part 4%nat ++ part 0%nat ++ part 1%nat ++ part 2%nat ++ part 5%nat
  end.

(** flatroot.cpp 420-433, writeOnlyKey. *)
Definition fl_onlyKey (g : graph) (key : Z) : list Z :=
  le 5 key ++ repeat 0 (match g with Labelled => 78 | Directed => 26 | Undirected => 13 end).

(** ** Reading the .idx files *)

(** flatroot.cpp 52-87, rewriteNewColumnStrategy.  The test on 6 in lines 81-83, which never
    holds, is left out. *)
Definition rewriteNewColumnStrategy (header1 header2 : Z) : option Z :=
  let bytesPerFirstEntry := Z.land (Z.shiftr header1 3) 7 in
  let remBytes := Z.land (Z.shiftr header2 3) 7 + Z.land header2 7 in
  if (bytesPerFirstEntry <? 1) || (5 <? bytesPerFirstEntry) then None
  else if (16 <? remBytes) || (remBytes <? 2) then None
  else
    let out := setStorageType 0 (if bytesPerFirstEntry <? 3 then 1 else if bytesPerFirstEntry <? 5 then 2 else NEWCOLUMN_ITR) in
    let out := if (bytesPerFirstEntry =? 2) || (bytesPerFirstEntry =? 4) then Z.lor out 16 else out in
    Some (to_char (Z.lor out (remBytes - 2))).

(** flatroot.cpp 121-142 and 341-368: key, strategy and position of an entry; the position is
    its number, and for an unlabelled graph the position of the table in the file. *)
Definition fl_entry (g : graph) (t : ts) (file : nat) (ix : list Z) (entry : Z) : option (Z * Z * Z) :=
  let b := 8 + 11 * entry in
  do key <- rdn 5 ix (b + 5);
  do s <- getb ix (b + 10);
  let strat := to_char s in
  if unlabeled g then
    do pos <- rdn 5 ix b;
    if getStorageType strat =? NEWCOLUMN_ITR then
      do h1 <- getb (t_file t file) pos;
      do h2 <- getb (t_file t file) (pos + 1);
      do s <- rewriteNewColumnStrategy h1 h2;
      Some (key, s, pos)
    else Some (key, strat, pos)
  else Some (key, strat, entry).

(** The two loops over the files and their entries (105-121 and 322-342) around [step], which
    takes key, strategy, file and position.  The directory holds two files for each number up to
    lastCreatedFile (Utils::getFiles). *)
Section Loop.
Context {A : Type} (g : graph) (t : ts) (step : Z -> Z -> Z -> Z -> A -> option A).
Fixpoint fl_entries (n : nat) (file : nat) (ix : list Z) (entry : Z) (a : A) : option A :=
  match n with
  | O => Some a
  | S n =>
    do (key, strat, pos) <- fl_entry g t file ix entry;
    do a <- step key strat (Z.of_nat file) pos a;
    fl_entries n file ix (entry + 1) a
  end.
Fixpoint fl_files (is_ : list nat) (a : A) : option A :=
  match is_ with
  | [] => Some a
  | i :: r =>
    if 32767 <? Z.of_nat i then None
    else match t_idx t i with
         | Some ix => do n <- rd 8 ix 0; do a <- fl_entries (Z.to_nat n) i ix 0 a; fl_files r a
         | None => fl_files r a
         end
  end.
Definition fl_loop (a : A) : option A := fl_files (seq 0 (2 * S (t_last t))) a.
End Loop.

(** ** The first permutation *)

(** What is left of the tree's iterator, keyToAdd and the file written. *)
Record fw := mkFw { fw_tree : list (Z * tc); fw_key : Z; fw_out : list Z }.

(** flatroot.cpp 208-211: while (++keyToAdd < treeKey) writeOnlyKey(keyToAdd). *)
Definition fl_gaps (g : graph) (a key : Z) : list Z :=
  flat_map (fun i => fl_onlyKey g (a + 1 + Z.of_nat i)) (seq 0 (Z.to_nat (key - (a + 1)))).
Definition fl_fill (g : graph) (a key : Z) (out : list Z) : Z * list Z :=
  (Z.max (a + 1) key, out ++ fl_gaps g a key).

(** flatroot.cpp 150-233, the loop over the tree up to [key].  Simplification: the pairs that
    the tree's iterator returns are a list. *)
Fixpoint fw_seek (g : graph) (junk : Z -> nat -> list Z) (key : Z) (l : list (Z * tc)) (a : Z) (out : list Z) : option (tc * fw) :=
  match l with
  | [] => None
  | (tk, v) :: r =>
    if key <? tk then None
    else if negb (unlabeled g) && forallb (fun i => fl_n v i =? 0) [4; 3; 0; 1; 2; 5]%nat then None
    else
      let (a, out) := fl_fill g a tk out in
      if negb (a =? tk) then None
      else if tk <? key then fw_seek g junk key r a (out ++ fl_record g junk tk v 0 0 0)
      else Some (v, mkFw r a out)
  end.

(** flatroot.cpp 121-246, an entry of SOP. *)
Definition fw_step (g : graph) (junk : Z -> nat -> list Z) (key strat file pos : Z) (w : fw) : option fw :=
  do (v, w) <- fw_seek g junk key (fw_tree w) (fw_key w) (fw_out w);
  Some (mkFw (fw_tree w) (fw_key w) (fw_out w ++ fl_record g junk key v strat file pos)).

(** flatroot.cpp 254-302, the terms after the last one of SOP. *)
Fixpoint fw_rest (g : graph) (junk : Z -> nat -> list Z) (l : list (Z * tc)) (a : Z) (out : list Z) : option (list Z) :=
  match l with
  | [] => Some out
  | (tk, v) :: r =>
    match v 3%nat with
    | Some _ => None
    | None =>
      if unlabeled g && (match v 4%nat with Some _ => false | None => true end) then None
      else
        let (a, out) := fl_fill g a tk out in
        fw_rest g junk r a (out ++ fl_record g junk tk v 0 0 0)
    end
  end.

(** flatroot.cpp 89-305, writeFirstPerm. *)
Definition fl_first (g : graph) (junk : Z -> nat -> list Z) (t : ts) (l : list (Z * tc)) : option (list Z) :=
  do w <- fl_loop g t (fw_step g junk) (mkFw l (-1) []);
  fw_rest g junk (fw_tree w) (fw_key w) (fw_out w).

(** ** The other permutations *)

(** flatroot.cpp 307-384, writeOtherPerm: [None] if it writes outside the file. *)
Definition fl_other (g : graph) (offset blocksize : Z) (t : option ts) (raw : list Z) : option (list Z) :=
  match t with
  | None => Some raw
  | Some t =>
    fl_loop g t (fun key strat file pos raw =>
      wr raw (key * blocksize + offset) ([strat mod 256] ++ le 2 file ++ le 5 pos)) raw
  end.

(** flatroot.cpp 386-415, loadFlatTree: [files i] are the files of permutation [i].  If SOP has no
    files, no file is written; then the other permutations cannot change it, which throws. *)
Definition fl_load (g : graph) (junk : Z -> nat -> list Z) (files : nat -> option ts) (l : list (Z * tc)) : option (option (list Z)) :=
  match files 3%nat with
  | None =>
    let others := match g with Undirected => [] | Directed => [4%nat] | Labelled => [4; 0; 1; 2; 5]%nat end in
    if existsb (fun i => match files i with Some _ => true | None => false end) others then None else Some None
  | Some t =>
    do raw <- fl_first g junk t l;
    do raw <- match g with
              | Undirected => Some raw
              | Directed => fl_other g 23 31 (files 4%nat) raw
              | Labelled =>
                do raw <- fl_other g 23 83 (files 4%nat) raw;
                do raw <- fl_other g 36 83 (files 0%nat) raw;
                do raw <- fl_other g 49 83 (files 1%nat) raw;
                do raw <- fl_other g 62 83 (files 2%nat) raw;
                fl_other g 75 83 (files 5%nat) raw
              end;
    Some (Some raw)
  end.
