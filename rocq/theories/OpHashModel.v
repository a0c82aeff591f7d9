(** The hash join of SPARQL plans, rdf3x/src/rts/HashJoin.cpp and
    include/rts/operator/HashJoin.hpp.

    A slot of the table is the chain of its entries, [[]] a null pointer; an entry is its key,
    its further values and its count.  The domain test of build (52-62), which drops left rows
    that cannot have a partner, is the parameter [qualify]; the update of the domains at the end
    (119-120) and the keys handed to the right side (121-123), which no scan reads, are left out. *)
From Verif Require Export OpModel.
Local Open Scope Z_scope.

Definition hj_entry := (Z * list Z * Z)%type.
Definition hj_table := list (list hj_entry).
(** 20-25; the table size is a power of two. *)
Definition hj_hash1 (key : Z) (size : nat) : nat := Z.to_nat (Z.land key (Z.of_nat size - 1)).
Definition hj_hash2 (key : Z) (size : nat) : nat :=
  (size + Z.to_nat (Z.land (Z.lxor key (Z.shiftr key 3)) (Z.of_nat size - 1)))%nat.
(** [e && (e->key == key)] *)
Definition hj_is (chain : list hj_entry) (key : Z) : bool :=
  match chain with [] => false | (k, _, _) :: _ => k =? key end.
Definition hj_get (ht : hj_table) (slot : nat) : list hj_entry := nth slot ht [].
Definition hj_put (ht : hj_table) (slot : nat) (c : list hj_entry) : hj_table := upd ht slot (fun _ => c).
Definition hj_key (c : list hj_entry) : Z := match c with [] => 0 | (k, _, _) :: _ => k end.

(** 154-166, the loop of insert: [inl] if a free slot was found, otherwise the entry left over. *)
Fixpoint hj_place (n size : nat) (firstTable : bool) (ht : hj_table) (e : list hj_entry)
  : hj_table + hj_table * list hj_entry :=
  match n with
  | O => inr (ht, e)
  | S k =>
      let slot := if firstTable then hj_hash1 (hj_key e) size else hj_hash2 (hj_key e) size in
      let old := hj_get ht slot in
      let ht' := hj_put ht slot e in
      match old with
      | [] => inl ht'
      | _ => hj_place k size (negb firstTable) ht' old
      end
  end.
(** 154-176; the memory has room for a table of [mem] slots, otherwise resize throws.  [fuel]
    bounds the nesting, each level of which at least doubles the table. *)
Fixpoint hj_insert_rec (fuel : nat) (mem : Z) (ht : hj_table) (e : list hj_entry) : option hj_table :=
  match fuel with
  | O => None
  | S k =>
      let size := (length ht / 2)%nat in
      match hj_place size size true ht e with
      | inl ht' => Some ht'
      | inr (oldTable, e') =>
          if mem <? 4 * Z.of_nat size then None
          else
            do ht1 <- fold_left (fun acc c => do t <- acc; match c with [] => Some t | _ => hj_insert_rec k mem t c end)
                        oldTable (Some (repeat [] (4 * size)));
            hj_insert_rec k mem ht1 e'
      end
  end.
Definition hj_insert (mem : Z) (ht : hj_table) (e : list hj_entry) : option hj_table :=
  hj_insert_rec (S (Z.to_nat (Z.log2 mem))) mem ht e.
(** 178-189 *)
Definition hj_lookup (ht : hj_table) (key : Z) : list hj_entry :=
  let size := (length ht / 2)%nat in
  let c1 := hj_get ht (hj_hash1 key size) in
  if hj_is c1 key then c1
  else let c2 := hj_get ht (hj_hash2 key size) in
       if hj_is c2 key then c2 else [].
(** 76-91: an equal tuple of the chain is counted. *)
Fixpoint hj_aggregate (chain : list hj_entry) (key : Z) (vals : list Z) (count : Z) : option (list hj_entry) :=
  match chain with
  | [] => None
  | (k, vs, c) :: chain' =>
      if (key =? k) && row_eqb vals vs then Some ((k, vs, c + count) :: chain')
      else do r <- hj_aggregate chain' key vals count; Some ((k, vs, c) :: r)
  end.
(** 63-116: one left row. *)
Definition hj_add (mem : Z) (ht : hj_table) (key : Z) (vals : list Z) (count : Z) : option hj_table :=
  let size := (length ht / 2)%nat in
  let slot1 := hj_hash1 key size in let slot2 := hj_hash2 key size in
  let bucket slot :=
    let chain := hj_get ht slot in
    match hj_aggregate chain key vals count with
    | Some chain' => Some (hj_put ht slot chain')
    | None => Some (hj_put ht slot ((key, vals, count) :: chain))
    end in
  if hj_is (hj_get ht slot1) key then bucket slot1
  else if hj_is (hj_get ht slot2) key then bucket slot2
  else hj_insert mem ht [(key, vals, count)].
Section HashJoin.
Variables (fuel : nat) (mem : Z) (qualify : regs -> bool) (lv rv : nat) (ltail rtail : list nat) (lopt ropt : bool).
(** 45-117: the loop over the left side; [c] is leftCount. *)
Fixpoint hj_build (k : nat) (left : oper) (c : Z) (g : regs) (ht : hj_table) : option (regs * oper * hj_table) :=
  match k with
  | O => None
  | S k' =>
      if c =? 0 then Some (g, left, ht)
      else
        do ht' <- (if qualify g then hj_add mem ht (g lv) (map g ltail) c else Some ht);
        do (c', g', left') <- o_next left g;
        hj_build k' left' c' g' ht'
  end.
Record hj_st := mkHj {
  hj_left : oper; hj_right : oper;
  hj_ht : option hj_table; (* [None]: not built yet *)
  hj_iter : list hj_entry; hj_rc : Z; hj_succ : bool;
  hj_coll : list Z; (* collectedRightValues *)
  hj_idx : option nat (* currentIdx, [None] is -1 *) }.
(** 222-233: the rows without partner at the end. *)
Fixpoint hj_scan (rest : hj_table) (coll : list Z) (i : nat) : option (hj_entry * nat) :=
  match rest with
  | [] => None
  | [] :: rest' => hj_scan rest' coll (S i)
  | ((k, vs, c) :: _) :: rest' =>
      if existsb (Z.eqb k) coll then hj_scan rest' coll (S i) else Some ((k, vs, c), S i)
  end.
Definition hj_final (ht : hj_table) (s : hj_st) (i : nat) (g : regs) : option (Z * regs * hj_st) :=
  let st i := mkHj (hj_left s) (hj_right s) (hj_ht s) (hj_iter s) (hj_rc s) (hj_succ s) (hj_coll s) (Some i) in
  match hj_scan (skipn i ht) (hj_coll s) i with
  | Some ((_, vs, c), i') => Some (c, set_regs ltail vs g, st i')
  | None => Some (0, g, st (length ht))
  end.
(** 209-214 and 279-284: look up the right value. *)
Definition hj_probe (ht : hj_table) (s : hj_st) (right : oper) (rc : Z) (g : regs) : hj_st :=
  let it := hj_lookup ht (g rv) in
  let succ := match it with [] => false | _ => true end in
  mkHj (hj_left s) right (Some ht) it rc succ
    (if ropt && succ then g rv :: hj_coll s else hj_coll s) None.
(** 235-286 *)
Fixpoint hj_loop (k : nat) (ht : hj_table) (s : hj_st) (g : regs) : option (Z * regs * hj_st) :=
  match hj_iter s with
  | (key, vs, c) :: rest =>
      Some (c * hj_rc s, set_regs ltail vs (set_reg lv key g),
            mkHj (hj_left s) (hj_right s) (hj_ht s) rest (hj_rc s) (hj_succ s) (hj_coll s) (hj_idx s))
  | [] =>
      if negb (hj_succ s) && lopt
      then Some (hj_rc s, set_all ltail null32 g,
                 mkHj (hj_left s) (hj_right s) (hj_ht s) [] (hj_rc s) true (hj_coll s) (hj_idx s))
      else if hj_rc s =? 0 then Some (0, g, s)
      else
        match k with
        | O => None
        | S k' =>
            do (rc, g1, r1) <- o_next (hj_right s) g;
            if rc =? 0 then
              let s1 := mkHj (hj_left s) r1 (hj_ht s) [] 0 (hj_succ s) (hj_coll s) (hj_idx s) in
              if negb ropt then Some (0, g1, s1) else hj_final ht s1 0 (set_all rtail null32 g1)
            else hj_loop k' ht (hj_probe ht s r1 rc g1) g1
        end
  end.
(** 219-287; the table is there since first was called. *)
Definition hj_next (s : hj_st) (g : regs) : option (Z * regs * hj_st) :=
  do ht <- hj_ht s;
  match hj_idx s with
  | Some i => hj_final ht s i g
  | None => hj_loop fuel ht s g
  end.
(** 191-217 *)
Definition hj_first (s : hj_st) (g : regs) : option (Z * regs * hj_st) :=
  do (g1, l1, ht) <-
    match hj_ht s with
    | Some ht => Some (g, hj_left s, ht)
    | None => do (c, g0, l0) <- o_first (hj_left s) g; hj_build fuel l0 c g0 (repeat [] (Z.to_nat 2048))
    end;
  do (rc, g2, r1) <- o_first (hj_right s) g1;
  let s1 := mkHj l1 r1 (Some ht) (hj_iter s) rc (hj_succ s) (hj_coll s) None in
  if (rc =? 0) && negb lopt then Some (0, g2, s1)
  else hj_next (hj_probe ht s1 r1 rc g2) g2.
Definition hash_join (left right : oper) : oper :=
  obj hj_first hj_next (mkHj left right None [] 0 false [] None).
End HashJoin.
