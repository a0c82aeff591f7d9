(** The dictionary of a database with its update layers: src/trident/kb/dictmgmt.cpp, the
    part of src/trident/kb/updater.cpp and src/trident/kb/kb.cpp that writes and opens it, and
    Loader::insertDictionary of src/trident/kb/loader.cpp.

    The B+tree from texts to identifiers is a list of pairs, the one from identifiers to
    coordinates (C17) as well, and a string buffer (C20) is the list of its strings; the
    coordinates of a string are the number of strings before it instead of the number of
    bytes.  Not modelled: the identifiers of relations (r2e, r2s, s2r) and statistics. *)
From Verif Require Export UpdModel.
Local Open Scope Z_scope.

(** ** The two trees and the string buffer of a layer, struct Dict, dictmgmt.h 87-110. *)
Record layer := mkL { t2i : list (text * Z); i2c : list (Z * nat); sb : list text }.

Fixpoint lookupZ {A} (k : Z) (l : list (Z * A)) : option A :=
  match l with
  | [] => None
  | (k', v) :: r => if k =? k' then Some v else lookupZ k r
  end.

(** Root::put(nTerm, int64_t), tree/root.cpp: the last value put for a key is found. *)
Definition inv_put (l : layer) (id : Z) (coord : nat) : layer :=
  mkL (t2i l) ((id, coord) :: i2c l) (sb l).
(** Root::insertIfNotExists (tree/root.cpp 224-237) and Leaf::putOrGet (tree/leaf.cpp
    480-493): an existing key keeps its value, which is returned in the argument; a new key is
    appended to the string buffer. *)
Definition insert_if_not_exists (l : layer) (t : text) (id : Z) : bool * Z * layer :=
  match lookup t (t2i l) with
  | Some old => (false, old, l)
  | None => (true, id, mkL ((t, id) :: t2i l) (i2c l) (sb l ++ [t]))
  end.
(** Root::append and Leaf::append (tree/leaf.cpp 469-472): the key is not searched. *)
Definition tree_append (l : layer) (t : text) (id : Z) : layer :=
  mkL ((t, id) :: t2i l) (i2c l) (sb l ++ [t]).

(** ** dictmgmt.cpp 256-263, appendPair (on the first dictionary). *)
Definition append_pair (l : layer) (t : text) (id : Z) : layer :=
  let coordinates := length (sb l) in
  inv_put (tree_append l t id) id coordinates.
(** ** dictmgmt.cpp 265-275, putPair.  Returns the result, the argument after the call and
    the layer. *)
Definition put_pair (l : layer) (t : text) (id : Z) : bool * Z * layer :=
  let coordinates := length (sb l) in
  let '(b, id', l1) := insert_if_not_exists l t id in
  if b then (true, id', inv_put l1 id' coordinates) else (false, id', l1).

(** ** loader.cpp 1226-1361, insertDictionary, with one dictionary, insertDictionary and
    insertInverseDictionary set and storeNumbersCoordinates not: first the terms of the
    dictionary files (in the order of the files, with the numbers after those of the
    popular terms), then the popular terms.  Returns the layer and *maxValueCounter. *)
Fixpoint append_all (l : layer) (key : Z) (ts : list text) : layer * Z :=
  match ts with
  | [] => (l, key)
  | t :: r => append_all (append_pair l t key) (key + 1) r
  end.
Fixpoint put_all (l : layer) (key : Z) (ts : list text) : layer * Z :=
  match ts with
  | [] => (l, key)
  | t :: r =>
    let '(_, key', l') := put_pair l t key in
    put_all l' (key' + 1) r
  end.
Definition insert_dictionary (popular others : list text) : layer * Z :=
  let '(l1, key1) := append_all (mkL [] [] []) (Z.of_nat (length popular)) others in
  let '(l2, key2) := put_all l1 0 popular in
  (l2, Z.max (key2 - 1) (key1 - 1)).

(** ** The dictionary in memory, dictmgmt.h 127-139. *)
Record dm := mkDM {
  dicts : list layer; beginrange : list Z;
  gud_idtext : list (Z * text); gud_textid : list (text * Z);
  gud_modified : bool; gud_largestID : Z }.

(** insert(make_pair(k, v)) of a hash map does nothing if the key is present. *)
Definition hinsertT (k : text) (v : Z) (m : list (text * Z)) : list (text * Z) :=
  match lookup k m with Some _ => m | None => m ++ [(k, v)] end.
Definition hinsertZ (k : Z) (v : text) (m : list (Z * text)) : list (Z * text) :=
  match lookupZ k m with Some _ => m | None => m ++ [(k, v)] end.

(** ** dictmgmt.cpp 127-135, putInUpdateDict. *)
Definition put_in_update (d : dm) (id : Z) (t : text) : dm :=
  mkDM (dicts d) (beginrange d) (hinsertZ id t (gud_idtext d)) (hinsertT t id (gud_textid d))
    true (if gud_largestID d <? id then id else gud_largestID d).

(** ** dictmgmt.cpp 152-218, getText (three variants with the same search). *)
Fixpoint find_idx (ranges : list Z) (key : Z) : nat :=
  match ranges with
  | [] => 0%nat
  | b :: r => if b <=? key then S (find_idx r key) else 0%nat
  end.
Definition get_text (d : dm) (key : Z) : option text :=
  do l <- nth_error (dicts d) (find_idx (tl (beginrange d)) key);
  match lookupZ key (i2c l) with
  | Some coord => nth_error (sb l) coord
  | None => lookupZ key (gud_idtext d)
  end.

(** ** dictmgmt.cpp 226-245, getNumber. *)
Fixpoint number_in (ls : list layer) (t : text) : option Z :=
  match ls with
  | [] => None
  | l :: r => match lookup t (t2i l) with Some i => Some i | None => number_in r t end
  end.
Definition get_number (d : dm) (t : text) : option Z :=
  match number_in (dicts d) t with
  | Some i => Some i
  | None => lookup t (gud_textid d)
  end.

(** ** dictmgmt.cpp 310-323, addUpdates: the iterator of a tree starts at its smallest key
    (C18).  [None] is the exception for a tree without keys. *)
Definition first_key (l : layer) : option Z :=
  match map fst (i2c l) with
  | [] => None
  | k :: r => Some (fold_right Z.min k r)
  end.
Fixpoint add_updates (d : dm) (ups : list layer) : option dm :=
  match ups with
  | [] => Some d
  | u :: r =>
    do k <- first_key u;
    add_updates (mkDM (dicts d ++ [u]) (beginrange d ++ [k]) (gud_idtext d) (gud_textid d)
                   (gud_modified d) (gud_largestID d)) r
  end.

(** ** The file of the small updates *)
(** Decimal digits of a number, as written by operator<<. *)
Fixpoint digits (fuel : nat) (n : Z) : list Z :=
  match fuel with
  | O => []
  | S f => if n <? 10 then [48 + n] else digits f (n / 10) ++ [48 + n mod 10]
  end.
Definition decimal (n : Z) : list Z := digits 20 n.

(** dictmgmt.cpp 325-341, the destructor: the bytes of the file "gud"; [order] is the order
    in which the hash map is enumerated.  endl writes a newline (10), '\t' is 9. *)
Definition gud_bytes (largest : Z) (order : list (Z * text)) : list Z :=
  decimal largest ++ [10] ++
  concat (map (fun e => decimal (fst e) ++ [9] ++ snd e ++ [10]) order).

(** An input stream: bytes left, failbit, eofbit. *)
Record istream := mkIS { left : list Z; failbit : bool; eofbit : bool }.
Definition isspace (c : Z) : bool := ((9 <=? c) && (c <=? 13)) || (c =? 32).
Definition isdigit (c : Z) : bool := (48 <=? c) && (c <=? 57).
Fixpoint skip_ws (l : list Z) : list Z :=
  match l with [] => [] | c :: r => if isspace c then skip_ws r else l end.
Fixpoint take_while (f : Z -> bool) (l : list Z) : list Z * list Z :=
  match l with
  | [] => ([], [])
  | c :: r => if f c then let '(a, b) := take_while f r in (c :: a, b) else ([], l)
  end.
Definition number_of (ds : list Z) : Z := fold_left (fun a c => a * 10 + (c - 48)) ds 0.

(** operator>>(uint64_t &) (C++ [istream.formatted.arithmetic]): nothing is read when a bit
    is set; blanks are skipped; without a digit failbit is set and the value is 0; at the end
    of the input eofbit is set.  Simplified: no sign, and no overflow check. *)
Definition read_num (s : istream) (old : Z) : Z * istream :=
  if failbit s || eofbit s then (old, mkIS (left s) true (eofbit s))
  else
    match skip_ws (left s) with
    | [] => (old, mkIS [] true true)
    | l =>
      let '(ds, rest) := take_while isdigit l in
      let eof := match rest with [] => true | _ => false end in
      match ds with
      | [] => (0, mkIS rest true eof)
      | _ => (number_of ds, mkIS rest false eof)
      end
    end.
(** operator>>(std::string &) (C++ [string.io]). *)
Definition read_str (s : istream) : text * istream :=
  if failbit s || eofbit s then ([], mkIS (left s) true (eofbit s))
  else
    match skip_ws (left s) with
    | [] => ([], mkIS [] true true)
    | l =>
      let '(w, rest) := take_while (fun c => negb (isspace c)) l in
      (w, mkIS rest false match rest with [] => true | _ => false end)
    end.

(** dictmgmt.cpp 62-71, the loop.  [None]: it does not end within [fuel] turns. *)
Fixpoint gud_loop (fuel : nat) (s : istream) (d : dm) : option dm :=
  if eofbit s then Some d
  else
    match fuel with
    | O => None
    | S f =>
      let '(id, s1) := read_num s 0 in
      let '(term, s2) := read_str s1 in
      gud_loop f s2
        (match term with
         | [] => d
         | _ => mkDM (dicts d) (beginrange d) (hinsertZ id term (gud_idtext d))
                  (hinsertT term id (gud_textid d)) (gud_modified d) (gud_largestID d)
         end)
    end.

(** ** dictmgmt.cpp 38-76, the constructor. *)
Definition new_dm (fuel : nat) (main : layer) (gud : option (list Z)) : option dm :=
  let d0 := mkDM [main] [0] [] [] false 0 in
  match gud with
  | None => Some d0
  | Some bytes =>
    let '(largest, s) := read_num (mkIS bytes false false) 0 in
    gud_loop fuel s (mkDM [main] [0] [] [] false largest)
  end.

(** ** updater.cpp 84-146, writeDict.  [limit] is 10000.  Returns the dictionary in memory
    and, for a large update, its layer with the next identifier written to its file stats. *)
Fixpoint put_many (d : dm) (l : list (text * Z)) : dm :=
  match l with [] => d | (t, i) :: r => put_many (put_in_update d i t) r end.
Fixpoint write_layer (l : layer) (indict : list (text * Z)) : layer :=
  match indict with
  | [] => l
  | (t, id) :: r =>
    let coordinates := length (sb l) in
    let '(b, id', l1) := insert_if_not_exists l t id in
    write_layer (if b then inv_put l1 id' coordinates else l1) r
  end.
Definition max_id (indict : list (text * Z)) : Z :=
  fold_left (fun m e => if m <? snd e then snd e else m) indict 0.
Definition write_dict (limit : nat) (d : dm) (indict : list (text * Z))
  : dm * option (layer * Z) :=
  match indict with
  | [] => (d, None)
  | _ =>
    if (length indict <? limit)%nat then (put_many d indict, None)
    else (d, Some (write_layer (mkL [] [] []) indict, max_id indict + 1))
  end.

(** ** The files of the dictionary: the main one with its next identifier, those of the
    updates in order, and the file "gud". *)
Record disk := mkDisk { main : layer; main_next : Z;
                        ups : list (layer * Z); gud : option (list Z) }.

(** kb.cpp 205-213 and 331-343: opening a database.  Returns the dictionary and nextID.
    Simplified: nextID is at least 1 also when there is no directory of updates. *)
Definition open_dict (fuel : nat) (k : disk) : option (dm * Z) :=
  do d <- new_dm fuel (main k) (gud k);
  do d1 <- add_updates d (map fst (ups k));
  let next := fold_left (fun m u => Z.max m (snd u)) (ups k) (main_next k) in
  Some (d1, Z.max next (gud_largestID d1 + 1)).

(** updater.cpp 318-369, the part about the dictionary: open, write the new terms, close.
    [enum] is the enumeration of the hash map in the destructor (dictmgmt.cpp 333). *)
Definition close_dict (enum : list (Z * text) -> list (Z * text)) (k : disk) (d : dm) : disk :=
  if gud_modified d && match gud_idtext d with [] => false | _ => true end
  then mkDisk (main k) (main_next k) (ups k)
         (Some (gud_bytes (gud_largestID d) (enum (gud_idtext d))))
  else k.
Definition record_terms (limit fuel : nat) (enum : list (Z * text) -> list (Z * text)) (k : disk)
    (indict : list (text * Z)) : option disk :=
  do (d, _) <- open_dict fuel k;
  let '(d1, up) := write_dict limit d indict in
  let k1 := mkDisk (main k) (main_next k)
              (ups k ++ match up with Some u => [u] | None => [] end) (gud k) in
  Some (close_dict enum k1 d1).
