(** Counting the answers to a pattern: src/trident/kb/querier.cpp getCard, getCardOnIndex, exists,
    isEmpty, and querier.h getInputSize.

    The B+tree entry of a term is the number of elements of its table per index ([None]: no table).
    An update is its type, its size and DiffIndex::getCard.  An iterator is what these functions
    ask of it: whether it is the empty iterator, hasNext and getCardinality, without and after
    ignoreSecondColumn. *)
From Verif Require Export QueryModel ItrModel.
Local Open Scope Z_scope.

Record qit := mkQit { i_empty : bool; i_has : bool; i_card : option Z; i_card_ign : option Z }.
Record diff := mkDiff { d_del : bool; d_size : Z; d_card : Z -> Z -> Z }.
Record engine := mkEngine {
  g_input : Z;                              (* inputSize *)
  g_tree : Z -> option (Z -> option Z);     (* tree->get: exists(idx), getNElements(idx) *)
  g_present : Z -> bool;
  g_diffs : list diff;                      (* diffIndices *)
  g_it : Z -> Z -> Z -> Z -> qit            (* getIterator(idx, s, p, o) *)
}.

(** lastKeyQueried, lastKeyFound, currentValue. *)
Record cache := mkCache { c_last : Z; c_found : bool; c_val : Z -> option Z }.

Section Card.
Variable g : engine.

(** querier.cpp 506-509 (and 1066-1069): the entry of a term; when it is not found, currentValue
    keeps its old content. *)
Definition lookup (k : Z) (c : cache) : cache :=
  if c_last c =? k then c
  else match g_tree g k with
       | Some v => mkCache k true v
       | None => mkCache k false (c_val c)
       end.

(** querier.cpp 1026-1075: the cache after getIterator. *)
Definition after_it (idx s p o : Z) (c : cache) : cache :=
  match getIterator_split idx s p o with
  | Some (a, _, _) => if 0 <=? a then lookup a c else c
  | None => c
  end.

(** querier.h 491-502, getInputSize; uint64_t on unbounded integers. *)
Definition getInputSize : Z :=
  fold_left (fun t d => if d_del d then t - d_size d else t + d_size d) (g_diffs g) (g_input g).

Definition unbound (s p o : Z) : Z :=
  (if s <? 0 then 1 else 0) + (if p <? 0 then 1 else 0) + (if o <? 0 then 1 else 0).
Definition elements (c : cache) (idx : Z) : Z :=
  if c_found c then match c_val c idx with Some n => n | None => 0 end else 0.

(** querier.cpp 486-536, getCard_internal; [None] is an exception of the iterator. *)
Definition getCard_internal (s p o : Z) (c : cache) : option (Z * cache) :=
  if (s <? 0) && (p <? 0) && (o <? 0) then Some (getInputSize, c)
  else
    let idx := getIndex s p o in
    if (unbound s p o =? 2) && (g_present g idx || ((3 <=? idx) && g_present g (idx - 3))) then
      let key := if 0 <=? s then s else if 0 <=? p then p else o in
      let c1 := lookup key c in
      Some (fold_left (fun n d => n + d_card d idx key) (g_diffs g) (elements c1 idx), c1)
    else
      let itr := g_it g idx s p o in
      let c1 := after_it idx s p o c in
      if negb (i_empty itr) && i_has itr then
        if unbound s p o =? 0 then Some (1, c1)
        else do n <- i_card itr; Some (n, c1)
      else Some (0, c1).

(** querier.cpp 470-484 and 538-540, memo and getCard: the table is static, the key holds the
    arguments (and the Querier, which is fixed here). *)
Definition memo_table := list ((Z * Z * Z) * Z).
Definition key_eqb (a b : Z * Z * Z) : bool :=
  (fst (fst a) =? fst (fst b)) && (snd (fst a) =? snd (fst b)) && (snd a =? snd b).
Definition getCard (s p o : Z) (t : memo_table) (c : cache) : option (Z * memo_table * cache) :=
  match find (fun e => key_eqb (fst e) (s, p, o)) t with
  | Some e => Some (snd e, t, c)
  | None => do (n, c1) <- getCard_internal s p o c; Some (n, ((s, p, o), n) :: t, c1)
  end.

(** querier.cpp 134-214, getCardOnIndex. *)
Definition getCardOnIndex (idx first second third : Z) (skipLast : bool) (c : cache) : option (Z * cache) :=
  let keyvar :=
    if (idx =? IDX_SPO) || (idx =? IDX_SOP) then first <? 0
    else if (idx =? IDX_POS) || (idx =? IDX_PSO) then second <? 0
    else if (idx =? IDX_OPS) || (idx =? IDX_OSP) then third <? 0
    else false in
  if keyvar && negb skipLast then Some (getInputSize, c)
  else
    let itr := g_it g idx first second third in
    let c1 := after_it idx first second third c in
    if negb (i_empty itr) && i_has itr then
      let n := unbound first second third in
      if 2 <=? n then
        if skipLast then do k <- i_card_ign itr; Some (k, c1)
        else
          let idx2 := if 2 <? idx then idx - 3 else idx in
          if negb (g_present g idx2) then do k <- i_card itr; Some (k, c1)
          else
            Some (fold_left (fun t d => if d_del d then t - d_card d idx2 (c_last c1)
                                        else t + d_card d idx2 (c_last c1)) (g_diffs g) (elements c1 idx2), c1)
      else if n =? 1 then
        if skipLast then Some (1, c1) else do k <- i_card itr; Some (k, c1)
      else Some (1, c1)
    else Some (0, c1).

(** querier.cpp 216-274, getCard(s, p, o, pos): the number of different values at a position.  The
    cache has no effect on it. *)
Definition getCardPos (s p o pos : Z) : option Z :=
  if (s <? 0) && (p <? 0) && (o <? 0) then None
  else
    let idx := getIndex s p o in
    let itr := g_it g idx s p o in
    if negb (i_empty itr) && i_has itr then
      let n := unbound s p o in
      if n =? 0 then Some 1
      else if n =? 1 then i_card itr
      else if n =? 2 then
        let idx2 :=
          if 0 <=? s then (if pos =? 2 then IDX_SOP else IDX_SPO)
          else if 0 <=? p then (if pos =? 0 then IDX_PSO else IDX_POS)
          else (if pos =? 0 then IDX_OSP else IDX_OPS) in
        let itr2 := if idx =? idx2 then itr else g_it g idx2 s p o in
        i_card_ign itr2
      else None
    else Some 0.

(** querier.cpp 544-557, exists. *)
Definition exists_ (s p o : Z) : bool :=
  let itr := g_it g (getIndex s p o) s p o in
  if i_empty itr then false else i_has itr.
(** querier.cpp 559-584, isEmpty. *)
Definition isEmpty (s p o : Z) : bool :=
  if (s <? 0) && (p <? 0) && (o <? 0) then
    (g_input g =? 0) && negb (existsb (fun d => 0 <? d_size d) (g_diffs g))
  else
    let itr := g_it g (getIndex s p o) s p o in
    if i_empty itr then true else negb (i_has itr).
End Card.
