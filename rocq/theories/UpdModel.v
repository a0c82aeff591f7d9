(** Recording an update: src/trident/kb/updater.cpp and include/trident/kb/updater.h.

    Not modelled: the parser of the update files (kognac), logging, time measurements, and
    the writing of the files of the update (DiffIndex3). *)
From Verif Require Export ItrModel.
Local Open Scope Z_scope.

(** include/trident/kb/diffindex.h: DiffIndex::TypeUpdate. *)
Inductive utype := ADDITION_df | DELETE_df.

(** ** updater.cpp 454-474, Updater::cmp. *)
Definition upd_cmp (o : pitr) (t : elem) : Z :=
  let '(s, p, ob) := t in
  if key o <? s then -1
  else if key o =? s then
    if value1 o <? p then -1
    else if value1 o =? p then
      if value2 o <? ob then -1
      else if value2 o =? ob then 0
      else 1
    else 1
  else 1.

(** updater.cpp 405-412, the inner loop: [kb = None] is kbitr == NULL.  [fuel] bounds the
    number of turns; [None] when it runs out. *)
Fixpoint upd_skip (fuel : nat) (kb : option pitr) (t : elem) : option (option pitr) :=
  match kb with
  | None => Some None
  | Some o =>
    if upd_cmp o t <? 0 then
      match fuel with
      | O => None
      | S f =>
        do (b, o1) <- hasNext o;
        if b then do o2 <- next o1; upd_skip f (Some o2) t
        else upd_skip f None t
      end
    else Some kb
  end.

(** updater.cpp 402-451: the loop over the input and the copy of what is left of
    it.  The three output vectors are modelled as one list of triples. *)
Fixpoint upd_loop (fuel : nat) (ty : utype) (kb : option pitr) (input : list elem)
  : option (list elem) :=
  match input with
  | [] => Some []
  | t :: rest =>
    do kb1 <- upd_skip fuel kb t;
    match kb1 with
    | Some o =>
      let res := upd_cmp o t in
      match ty with
      | ADDITION_df =>
        if negb (res =? 0) then
          do out <- upd_loop fuel ty kb1 rest; Some (t :: out)
        else upd_loop fuel ty kb1 rest
      | DELETE_df =>
        if res =? 0 then
          do (b, o1) <- hasNext o;
          if b then
            do o2 <- next o1;
            do out <- upd_loop fuel ty (Some o2) rest; Some (t :: out)
          else Some [t]
        else upd_loop fuel ty kb1 rest
      end
    | None =>
      match ty with
      | ADDITION_df => Some input
      | DELETE_df => Some []
      end
    end
  end.

(** ** updater.cpp 387-452, Updater::match.  [o] is the iterator returned by
    getIterator(IDX_SPO, -1, -1, -1). *)
Definition upd_match (fuel : nat) (ty : utype) (o : pitr) (input : list elem)
  : option (list elem) :=
  do (b, o1) <- hasNext o;
  if b then do o2 <- next o1; upd_loop fuel ty (Some o2) input
  else upd_loop fuel ty None input.

(** ** Encoding of the terms *)
Definition text := list Z.
Definition text_eqb (a b : text) : bool := if list_eq_dec Z.eq_dec a b then true else false.

(** updater.h 66-76, struct TextualTriple. *)
Record ttriple := mkT { tx_s : text; tx_p : text; tx_o : text; nums : Z; nump : Z; numo : Z }.

(** strncmp(s1, s2, len) of two texts that both have at least [len] bytes: bytes are
    compared as unsigned values up to [len] or to a common NUL byte. *)
Fixpoint strncmp (s1 s2 : text) (len : nat) : Z :=
  match len, s1, s2 with
  | S n, a :: r1, b :: r2 =>
    if a =? b then if a =? 0 then 0 else strncmp r1 r2 n
    else a - b
  | _, _, _ => 0
  end.

(** updater.h 99-106, lessThan. *)
Definition lessThan (s1 s2 : text) : bool :=
  let len := Nat.min (length s1) (length s2) in
  let c := strncmp s1 s2 len in
  if negb (c =? 0) then c <? 0
  else (length s1 <? length s2)%nat.

(** updater.h 108-121, sortByS, sortByP, sortByO. *)
Definition sortByS (t1 t2 : ttriple) : bool := lessThan (tx_s t1) (tx_s t2).
Definition sortByP (t1 t2 : ttriple) : bool := lessThan (tx_p t1) (tx_p t2).
Definition sortByO (t1 t2 : ttriple) : bool := lessThan (tx_o t1) (tx_o t2).

Definition UINT64_MAX : Z := 2 ^ 64 - 1.
(** Conversion of the int64_t previd to the uint64_t of the triple. *)
Definition u64 (v : Z) : Z := v mod 2 ^ 64.

(** The variables of compressUpdate: the text in supportbuffer with supportlen bytes,
    previd, nextID and tmpdict (updater.cpp 157-159, 171-172).  The hash map from
    length-prefixed texts to identifiers is a list of pairs; it is not written with the same
    key twice. *)
Record enc_st := mkE { support : text; previd : Z; nextID : Z; tmpdict : list (text * Z) }.

Fixpoint lookup (t : text) (l : list (text * Z)) : option Z :=
  match l with
  | [] => None
  | (k, v) :: r => if text_eqb t k then Some v else lookup t r
  end.

Section Compress.
  (** dict->getNumber (C44), and MAX_TERM_SIZE of kognac: a longer text overflows
      supportbuffer (updater.cpp 157, 183, 219, 261). *)
  Context (getNumber : text -> option Z) (maxterm : nat).

  (** updater.cpp 178-206, one turn of the loop over the subjects.  Returns the identifier
      stored in the triple. *)
  Definition enc_s (ty : utype) (st : enc_st) (t : text) : option (Z * enc_st) :=
    if text_eqb (support st) t then Some (u64 (previd st), st)
    else if (maxterm <? length t)%nat then None
    else
      match getNumber t with
      | Some id => Some (id, mkE t id (nextID st) (tmpdict st))
      | None =>
        match ty with
        | ADDITION_df =>
          Some (nextID st,
                mkE t (nextID st) (nextID st + 1) ((t, nextID st) :: tmpdict st))
        | DELETE_df => Some (UINT64_MAX, mkE t (previd st) (nextID st) (tmpdict st))
        end
      end.

  (** updater.cpp 214-248 and 256-290, one turn of the loops over the predicates and the
      objects. *)
  Definition enc_po (ty : utype) (st : enc_st) (t : text) : option (Z * enc_st) :=
    if text_eqb (support st) t then Some (u64 (previd st), st)
    else if (maxterm <? length t)%nat then None
    else
      match getNumber t with
      | Some id => Some (id, mkE t id (nextID st) (tmpdict st))
      | None =>
        match ty with
        | ADDITION_df =>
          match lookup t (tmpdict st) with
          | Some id => Some (id, mkE t id (nextID st) (tmpdict st))
          | None =>
            Some (nextID st,
                  mkE t (nextID st) (nextID st + 1) ((t, nextID st) :: tmpdict st))
          end
        | DELETE_df => Some (UINT64_MAX, mkE t (previd st) (nextID st) (tmpdict st))
        end
      end.

  (** A pass over the triples: [get] reads the text, [set] stores the identifier. *)
  Fixpoint pass (turn : enc_st -> text -> option (Z * enc_st))
      (get : ttriple -> text) (set : ttriple -> Z -> ttriple)
      (st : enc_st) (l : list ttriple) : option (list ttriple * enc_st) :=
    match l with
    | [] => Some ([], st)
    | t :: r =>
      do (n, st1) <- turn st (get t);
      do (r', st2) <- pass turn get set st1 r;
      Some (set t n :: r', st2)
    end.

  Definition set_s (t : ttriple) n := mkT (tx_s t) (tx_p t) (tx_o t) n (nump t) (numo t).
  Definition set_p (t : ttriple) n := mkT (tx_s t) (tx_p t) (tx_o t) (nums t) n (numo t).
  Definition set_o (t : ttriple) n := mkT (tx_s t) (tx_p t) (tx_o t) (nums t) (nump t) n.

  (** The sorting functions: std::sort with the comparison named (updater.cpp 175, 209, 251,
      304). *)
  Record sorts := mkSorts {
    by_s : list ttriple -> list ttriple;
    by_p : list ttriple -> list ttriple;
    by_o : list ttriple -> list ttriple;
    by_num : list elem -> list elem }.

  (** updater.h 47-58, Triple::sorter. *)
  Definition sorter (t1 t2 : elem) : bool :=
    let '(s1, p1, o1) := t1 in
    let '(s2, p2, o2) := t2 in
    if s1 <? s2 then true
    else if s1 =? s2 then
      if p1 <? p2 then true
      else if p1 =? p2 then o1 <? o2
      else false
    else false.

  (** updater.cpp 292-300: the triples whose three identifiers are not UINT64_MAX. *)
  Definition known (t : ttriple) : bool :=
    negb (nums t =? UINT64_MAX) && negb (nump t =? UINT64_MAX) && negb (numo t =? UINT64_MAX).
  Definition parsed (l : list ttriple) : list elem :=
    map (fun t => (nums t, nump t, numo t)) (filter known l).

  (** std::unique with Triple::equal (updater.h 60-62, updater.cpp 306-309): of each run of
      equal triples the first one stays. *)
  Definition triple_eqb (a b : elem) : bool :=
    let '(s, p, o) := a in
    let '(s', p', o') := b in
    (s =? s') && (p =? p') && (o =? o').
  Fixpoint unique (l : list elem) : list elem :=
    match l with
    | [] => []
    | x :: r =>
      match unique r with
      | [] => [x]
      | y :: r' => if triple_eqb x y then x :: r' else x :: y :: r'
      end
    end.

  (** ** updater.cpp 148-309, Updater::compressUpdate up to the call of match.  [next] is
      kb->getNextID().  Returns the numeric triples and tmpdict. *)
  Definition encode (ty : utype) (so : sorts) (next : Z) (triples : list ttriple)
    : option (list elem * list (text * Z)) :=
    let st0 := mkE [] (-1) next [] in
    do (l1, st1) <- pass (enc_s ty) tx_s set_s st0 (by_s so triples);
    let st1 := mkE [] (previd st1) (nextID st1) (tmpdict st1) in
    do (l2, st2) <- pass (enc_po ty) tx_p set_p st1 (by_p so l1);
    let st2 := mkE [] (previd st2) (nextID st2) (tmpdict st2) in
    do (l3, st3) <- pass (enc_po ty) tx_o set_o st2 (by_o so l2);
    Some (unique (by_num so (parsed l3)), tmpdict st3).

  (** ** updater.cpp 148-316, compressUpdate with the call of match. *)
  Definition compress_update (fuel : nat) (ty : utype) (so : sorts) (next : Z)
      (kb : pitr) (triples : list ttriple) : option (list elem * list (text * Z)) :=
    do (l, tmp) <- encode ty so next triples;
    do out <- upd_match fuel ty kb l;
    Some (out, tmp).
End Compress.

(** ** updater.cpp 371-385, Updater::getPathForUpdate: the number of the directory of the
    next update.  [exists_dir n] tells whether the directory n exists; when the directory
    _diff does not exist, none does. *)
Fixpoint path_for_update (fuel : nat) (exists_dir : nat -> bool) (idx : nat) : option nat :=
  match fuel with
  | O => None
  | S f => if exists_dir idx then path_for_update f exists_dir (S idx) else Some idx
  end.
