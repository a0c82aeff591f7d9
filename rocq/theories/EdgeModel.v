(** The edge interface of the query engine: enumerating, counting, grouping and accessing the
    edges (source, relation, destination) that match a pattern.
    Source: include/trident/kb/querier.h, include/trident/iterators/filtersameitr.h.
    Querier::getIterator and Querier::getCard are parameters of this file; what the theorems
    assume of them is in EdgeSpec. *)
From Verif Require Export QueryModel ItrModel.
Local Open Scope Z_scope.

(** ** FilterSameItr, filtersameitr.h 35-154. *)
Record fs_st := mkFs {
  fs_u : pitr;                 (* underlying *)
  fs_pos1 : Z; fs_pos2 : Z;
  fs_hn : bool; fs_hnc : bool;
  fs_saved : bool * bool       (* savedhn, savedhnc *)
}.

(** filtersameitr.h 45-49, init: the flags keep the values they have in the object. *)
Definition fs_init (s : fs_st) (u : pitr) (pos1 pos2 : Z) : fs_st :=
  mkFs u pos1 pos2 (fs_hn s) (fs_hnc s) (fs_saved s).

(** filtersameitr.h 77-96, the comparison in hasNext; [None] is the failed assertion. *)
Definition fs_same (pos1 pos2 : Z) (u : pitr) : option bool :=
  if pos1 =? 0 then
    if pos2 =? 1 then Some (key u =? value1 u) else Some (key u =? value2 u)
  else if (pos1 =? 1) && (pos2 =? 2) then Some (value1 u =? value2 u)
  else None.

(** filtersameitr.h 73-97, the loop of hasNext: (found, underlying). *)
Fixpoint fs_loop (fuel : nat) (pos1 pos2 : Z) (u : pitr) : option (bool * pitr) :=
  match fuel with
  | O => None
  | S f =>
    do (b, u1) <- hasNext u;
    if b then
      do u2 <- next u1;
      do e <- fs_same pos1 pos2 u2;
      if e then Some (true, u2) else fs_loop f pos1 pos2 u2
    else Some (false, u1)
  end.

(** filtersameitr.h 71-100, hasNext. *)
Definition fs_hasNext (fuel : nat) (s : fs_st) : option (bool * fs_st) :=
  if fs_hnc s then Some (fs_hn s, s)
  else
    do (b, u) <- fs_loop fuel (fs_pos1 s) (fs_pos2 s) (fs_u s);
    Some (b, mkFs u (fs_pos1 s) (fs_pos2 s) b true (fs_saved s)).

(** filtersameitr.h 55-69, 102-143, the other methods. *)
Definition fs_with (s : fs_st) (u : pitr) : fs_st :=
  mkFs u (fs_pos1 s) (fs_pos2 s) (fs_hn s) (fs_hnc s) (fs_saved s).
CoFixpoint fs_obj (fuel : nat) (s : fs_st) : pitr := {|
  hasNext := match fs_hasNext fuel s with
             | Some (b, s') => Some (b, fs_obj fuel s') | None => None end;
  next := Some (fs_obj fuel (mkFs (fs_u s) (fs_pos1 s) (fs_pos2 s) (fs_hn s) false (fs_saved s)));
  value1 := value1 (fs_u s);
  value2 := value2 (fs_u s);
  key := key (fs_u s);
  getCount := None;
  moveto := fun c1 c2 => match moveto (fs_u s) c1 c2 with
                         | Some u => Some (fs_obj fuel (mkFs u (fs_pos1 s) (fs_pos2 s) (fs_hn s) false (fs_saved s)))
                         | None => None end;
  ignoreSecondColumn := match ignoreSecondColumn (fs_u s) with
                        | Some u => Some (fs_obj fuel (fs_with s u)) | None => None end;
  mark := match mark (fs_u s) with
          | Some u => Some (fs_obj fuel (mkFs u (fs_pos1 s) (fs_pos2 s) (fs_hn s) (fs_hnc s) (fs_hn s, fs_hnc s)))
          | None => None end;
  reset := fun i => match reset (fs_u s) i with
                    | Some u => Some (fs_obj fuel (mkFs u (fs_pos1 s) (fs_pos2 s)
                                        (fst (fs_saved s)) (snd (fs_saved s)) (fs_saved s)))
                    | None => None end;
  setKey := fun k => fs_obj fuel (fs_with s (setKey (fs_u s) k)) |}.

(** ** EdgeItr, querier.h 109-155. *)
Record edge := mkEdge { e_order : list nat; e_itr : pitr }.
Definition e_hasNext (e : edge) : option (bool * edge) :=
  do (b, o) <- hasNext (e_itr e); Some (b, mkEdge (e_order e) o).
Definition e_next (e : edge) : option edge :=
  do o <- next (e_itr e); Some (mkEdge (e_order e) o).
(** querier.h 126-137. *)
Definition e_value (e : edge) (i : nat) : option Z :=
  match i with
  | 0%nat => Some (key (e_itr e))
  | 1%nat => Some (value1 (e_itr e))
  | 2%nat => Some (value2 (e_itr e))
  | _ => None
  end.
(** querier.h 139-154. *)
Definition e_field (e : edge) (i : nat) : option Z :=
  do j <- nth_error (e_order e) i; e_value e j.
Definition e_triple (e : edge) : option (Z * Z * Z) :=
  do s <- e_field e 0; do p <- e_field e 1; do o <- e_field e 2; Some (s, p, o).

(** querier.h 333-354, Querier::sameVar: the positions p1 and p2 when it returns true. *)
Definition sameVar (s r d : Z) : option (Z * Z) :=
  if (s <? 0) && (r =? s) then Some (0, 1)
  else if (s <? 0) && (d =? s) then Some (0, 2)
  else if (r <? 0) && (d =? r) then Some (1, 2)
  else None.

(** The six orders of the functions edg_srd, edg_sdr, ... *)
Inductive kind := SRD | SDR | DRS | DSR | RSD | RDS.

(** querier.h 625-701: the index each function asks. *)
Definition edg_idx (k : kind) (s r d : Z) : Z :=
  match k with
  | SRD => if 0 <=? d then (if 0 <=? r then IDX_OPS else IDX_OSP)
           else if 0 <=? r then IDX_PSO else IDX_SPO
  | SDR => if 0 <=? r then (if 0 <=? d then IDX_POS else IDX_PSO)
           else if 0 <=? d then IDX_OSP else IDX_SOP
  | DRS => if 0 <=? s then (if 0 <=? r then IDX_SPO else IDX_SOP)
           else if 0 <=? r then IDX_POS else IDX_OPS
  | DSR => if 0 <=? r then (if 0 <=? s then IDX_PSO else IDX_POS)
           else if 0 <=? s then IDX_SOP else IDX_OSP
  | RSD => if 0 <=? d then (if 0 <=? s then IDX_OSP else IDX_OPS)
           else if 0 <=? s then IDX_SPO else IDX_PSO
  | RDS => if 0 <=? s then (if 0 <=? d then IDX_SOP else IDX_SPO)
           else if 0 <=? d then IDX_OPS else IDX_POS
  end.

Section Edges.
(** Querier::getIterator(idx, s, p, o); getCard(s, p, o); getCard(s, p, o, pos), where [None]
    is an exception; the FilterSameItr object the factory hands out; the bound of the loops. *)
Variables (getIt : Z -> Z -> Z -> Z -> pitr) (getCard : Z -> Z -> Z -> Z)
  (getCardPos : Z -> Z -> Z -> Z -> option Z) (fresh : fs_st) (fuel : nat).

Definition neg1 (v : Z) : Z := if v <? 0 then -1 else v.

(** querier.h 419-431, Querier::getEdgeItr. *)
Definition getEdgeItr (idx s r d : Z) : option edge :=
  do inv <- getInvOrder idx;
  let it := getIt idx (neg1 s) (neg1 r) (neg1 d) in
  Some (mkEdge inv
    match sameVar s r d with
    | Some (p1, p2) => fs_obj fuel (fs_init fresh it p1 p2)
    | None => it
    end).

(** querier.h 625-701. *)
Definition edg (k : kind) (s r d : Z) : option edge := getEdgeItr (edg_idx k s r d) s r d.

(** querier.h 709-712, the loop of countEdges. *)
Fixpoint count_loop (f : nat) (o : pitr) (cnt : Z) : option Z :=
  match f with
  | O => None
  | S f' =>
    do (b, o1) <- hasNext o;
    if b then do o2 <- next o1; count_loop f' o2 (cnt + 1) else Some cnt
  end.
(** querier.h 703-718, countEdges. *)
Definition countEdges (s r d : Z) : option Z :=
  match sameVar s r d with
  | Some (p1, p2) => count_loop fuel (fs_obj fuel (fs_init fresh (getIt IDX_SPO s r d) p1 p2)) 0
  | None => Some (getCard s r d)
  end.

(** ** Groups.  querier.h 58-106 and 158-269, KeyCardItr and its three classes; [None] as key
    stands for a field that was never written. *)
Record kc_st := mkKc {
  kc_itr : edge;
  kc_hn : bool; kc_hnDone : bool; kc_nextDone : bool;
  kc_nextCard : Z; kc_nextKey1 : Z; kc_nextKey2 : Z;
  kc_card : Z; kc_key1 : option Z; kc_key2 : option Z
}.
(** querier.h 168-169 and 224-225. *)
Definition kc_new (e : edge) : kc_st := mkKc e false false false 0 0 0 0 None None.

(** querier.h 186-193 and 243-250, the inner loop: (itr, nextDone, nextCard).  [two] tells
    TwoKeyCardItr from OneKeyCardItr. *)
Fixpoint kc_loop (f : nat) (two : bool) (e : edge) (k1 k2 n : Z) : option (edge * bool * Z) :=
  match f with
  | O => None
  | S f' =>
    do (b, e1) <- e_hasNext e;
    if b then
      do e2 <- e_next e1;
      do v0 <- e_value e2 0;
      do v1 <- e_value e2 1;
      if negb (v0 =? k1) || (two && negb (v1 =? k2)) then Some (e2, true, n)
      else kc_loop f' two e2 k1 k2 (n + 1)
    else Some (e1, false, n)
  end.
(** querier.h 171-197 and 227-254, hasNext. *)
Definition kc_hasNext (two : bool) (s : kc_st) : option (bool * kc_st) :=
  if kc_hnDone s then Some (kc_hn s, s)
  else
    do (hn, e) <-
      (if kc_nextDone s then Some (true, kc_itr s)
       else
         do (b, e1) <- e_hasNext (kc_itr s);
         if b then do e2 <- e_next e1; Some (true, e2) else Some (false, e1));
    if hn then
      do k1 <- e_value e 0;
      do k2 <- e_value e 1;
      do (e', nd, n) <- kc_loop fuel two e k1 k2 1;
      Some (true, mkKc e' true true nd n k1 k2 (kc_card s) (kc_key1 s) (kc_key2 s))
    else
      Some (false, mkKc e false true (kc_nextDone s) (kc_nextCard s) (kc_nextKey1 s) (kc_nextKey2 s)
                     (kc_card s) (kc_key1 s) (kc_key2 s)).
(** querier.h 199-206 and 256-264, next. *)
Definition kc_next (two : bool) (s : kc_st) : option kc_st :=
  if negb (kc_hn s) || negb (kc_hnDone s) then None
  else Some (mkKc (kc_itr s) (kc_hn s) false (kc_nextDone s) (kc_nextCard s) (kc_nextKey1 s)
               (kc_nextKey2 s) (kc_nextCard s) (Some (kc_nextKey1 s))
               (if two then Some (kc_nextKey2 s) else kc_key2 s)).

(** A client that reads all groups: (getKey1, getKey2, getCard) after each next. *)
Fixpoint kc_drain (f : nat) (two : bool) (s : kc_st) : option (list (option Z * option Z * Z)) :=
  match f with
  | O => None
  | S f' =>
    do (b, s1) <- kc_hasNext two s;
    if b then
      do s2 <- kc_next two s1;
      do l <- kc_drain f' two s2;
      Some ((kc_key1 s2, kc_key2 s2, kc_card s2) :: l)
    else Some []
  end.

(** The groups of ConstKeyCardItr: querier.cpp 57-61 (one key) and 63-68 (two keys), querier.h
    96-102. *)
Definition const1 (s r d k : Z) : list (option Z * option Z * Z) :=
  let card := getCard s r d in if 0 <? card then [(Some k, None, card)] else [].
Definition const2 (s r d k1 k2 : Z) : list (option Z * option Z * Z) :=
  let card := getCard s r d in if 0 <? card then [(Some k2, None, card)] else [].

Definition drain_groups (two : bool) (e : option edge) : option (list (option Z * option Z * Z)) :=
  do x <- e; kc_drain fuel two (kc_new x).

(** querier.h 721-791: what a client that reads all groups of grp_s, grp_sr, ... gets. *)
Definition grp_s (s r d : Z) := if 0 <=? s then Some (const1 s r d s)
  else drain_groups false (if 0 <=? d then edg SDR s r d else edg SRD s r d).
Definition grp_r (s r d : Z) := if 0 <=? r then Some (const1 s r d r)
  else drain_groups false (if 0 <=? d then edg RDS s r d else edg RSD s r d).
Definition grp_d (s r d : Z) := if 0 <=? d then Some (const1 s r d d)
  else drain_groups false (if 0 <=? r then edg DRS s r d else edg DSR s r d).
Definition grp2 (k : kind) (s r d : Z) :=
  let '(a, b) := match k with
                 | SRD => (s, r) | SDR => (s, d) | RSD => (r, s) | RDS => (r, d)
                 | DSR => (d, s) | DRS => (d, r) end in
  if (0 <=? a) && (0 <=? b) then Some (const2 s r d a b) else drain_groups true (edg k s r d).

(** querier.h 356-363, countKeyCardItr. *)
Fixpoint kc_count (f : nat) (two : bool) (s : kc_st) (card : Z) : option Z :=
  match f with
  | O => None
  | S f' =>
    do (b, s1) <- kc_hasNext two s;
    if b then do s2 <- kc_next two s1; kc_count f' two s2 (card + 1) else Some card
  end.
(** querier.h 793-882, cnt_grp_s ... cnt_grp_dr. *)
Definition cnt_grp1 (a pos s r d : Z) : option Z :=
  if 0 <=? a then Some (if 0 <? getCard s r d then 1 else 0) else getCardPos s r d pos.
Definition cnt_grp_s (s r d : Z) := cnt_grp1 s 0 s r d.
Definition cnt_grp_r (s r d : Z) := cnt_grp1 r 1 s r d.
Definition cnt_grp_d (s r d : Z) := cnt_grp1 d 2 s r d.
Definition cnt_grp2 (k : kind) (s r d : Z) : option Z :=
  let '(a, b) := match k with
                 | SRD => (s, r) | SDR => (s, d) | RSD => (r, s) | RDS => (r, d)
                 | DSR => (d, s) | DRS => (d, r) end in
  if (0 <=? a) && (0 <=? b) then Some (if 0 <? getCard s r d then 1 else 0)
  else do e <- edg k s r d; kc_count fuel true (kc_new e) 0.

(** ** Access by position.  querier.h 888-896 and the same loop in the five other functions. *)
Fixpoint pos_loop (n : nat) (e : edge) (hn : bool) : option (edge * bool) :=
  match n with
  | O => Some (e, hn)
  | S n' =>
    if hn then do e1 <- e_next e; do (b, e2) <- e_hasNext e1; pos_loop n' e2 b else None
  end.
(** querier.h 884-991, pos_srd ... pos_drs. *)
Definition pos (k : kind) (s r d : Z) (n : nat) : option (Z * Z * Z) :=
  do e <- edg k s r d;
  do (b, e1) <- e_hasNext e;
  do (e2, hn) <- pos_loop n e1 b;
  if hn then e_triple e2 else None.
End Edges.
