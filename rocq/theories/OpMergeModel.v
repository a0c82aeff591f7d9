(** The merge join of SPARQL plans, rdf3x/src/rts/MergeJoin.cpp and
    include/rts/operator/MergeJoin.hpp.

    Simplified: counts are unbounded; the buffer is a list of tuples instead of their
    concatenation; disableSkipping, which no code sets, is false; the observed cardinality is left
    out.  A shadow is the list count, join value, further values. *)
From Verif Require Export OpModel.
Local Open Scope Z_scope.

(** MergeJoin.hpp 30-38 *)
Inductive mj_state :=
| Empty | ScanHasBothSwapped | ScanStepLeft | ScanStepBoth | ScanStepRight | ScanHasBoth
| LoopEmptyLeft | LoopEmptyRight | LoopEmptyRightHasData
| LoopEqualLeftHasData | LoopEqualLeft | LoopEqualRightHasData | LoopEqualRight
| LoopSpooledRightEmpty | LoopSpooledRightHasData
| ScanStepLeftCopyRight | ScanStepRightCopyLeft | LoopEmptyLeftCopyLeft | LoopEmptyRightCopyRight.
Record mj_st := mkMj {
  mj_left : oper; mj_right : oper; mj_lc : Z; mj_rc : Z;
  mj_ls : list Z; mj_rs : list Z; (* leftShadow, rightShadow *)
  mj_buf : list (list Z); mj_iter : list (list Z); (* buffer, and its rest from bufferIter on *)
  mj_scan : mj_state; mj_copy : bool (* leftInCopy *) }.
Definition mj_set_left l (s : mj_st) := mkMj l (mj_right s) (mj_lc s) (mj_rc s) (mj_ls s) (mj_rs s) (mj_buf s) (mj_iter s) (mj_scan s) (mj_copy s).
Definition mj_set_right r (s : mj_st) := mkMj (mj_left s) r (mj_lc s) (mj_rc s) (mj_ls s) (mj_rs s) (mj_buf s) (mj_iter s) (mj_scan s) (mj_copy s).
Definition mj_set_lc c (s : mj_st) := mkMj (mj_left s) (mj_right s) c (mj_rc s) (mj_ls s) (mj_rs s) (mj_buf s) (mj_iter s) (mj_scan s) (mj_copy s).
Definition mj_set_rc c (s : mj_st) := mkMj (mj_left s) (mj_right s) (mj_lc s) c (mj_ls s) (mj_rs s) (mj_buf s) (mj_iter s) (mj_scan s) (mj_copy s).
Definition mj_set_ls x (s : mj_st) := mkMj (mj_left s) (mj_right s) (mj_lc s) (mj_rc s) x (mj_rs s) (mj_buf s) (mj_iter s) (mj_scan s) (mj_copy s).
Definition mj_set_rs x (s : mj_st) := mkMj (mj_left s) (mj_right s) (mj_lc s) (mj_rc s) (mj_ls s) x (mj_buf s) (mj_iter s) (mj_scan s) (mj_copy s).
Definition mj_set_buf b i (s : mj_st) := mkMj (mj_left s) (mj_right s) (mj_lc s) (mj_rc s) (mj_ls s) (mj_rs s) b i (mj_scan s) (mj_copy s).
Definition mj_set_scan x (s : mj_st) := mkMj (mj_left s) (mj_right s) (mj_lc s) (mj_rc s) (mj_ls s) (mj_rs s) (mj_buf s) (mj_iter s) x (mj_copy s).
Definition mj_set_copy b (s : mj_st) := mkMj (mj_left s) (mj_right s) (mj_lc s) (mj_rc s) (mj_ls s) (mj_rs s) (mj_buf s) (mj_iter s) (mj_scan s) b.

Section MergeJoin.
Variables (fuel : nat) (lv rv : nat) (ltail rtail : list nat) (lopt ropt : bool).
Local Notation X := (lv :: ltail).
Local Notation Y := (rv :: rtail).
(** 78-112 *)
Definition mj_copy_left (s : mj_st) (g : regs) : mj_st := mj_set_ls (mj_lc s :: map g X) s.
Definition mj_copy_right (s : mj_st) (g : regs) : mj_st := mj_set_rs (mj_rc s :: map g Y) s.
Definition mj_swap_left (s : mj_st) (g : regs) : regs * mj_st :=
  (set_regs X (tl (mj_ls s)) g, mj_set_lc (hd 0 (mj_ls s)) (mj_set_ls (mj_lc s :: map g X) s)).
Definition mj_swap_right (s : mj_st) (g : regs) : regs * mj_st :=
  (set_regs Y (tl (mj_rs s)) g, mj_set_rc (hd 0 (mj_rs s)) (mj_set_rs (mj_rc s :: map g Y) s)).
(** leftShadow[1], rightShadow[1] *)
Definition mj_lkey (s : mj_st) : Z := nth 1 (mj_ls s) 0.
Definition mj_rkey (s : mj_st) : Z := nth 1 (mj_rs s) 0.
Definition mj_next_left (s : mj_st) (g : regs) : option (Z * regs * mj_st) :=
  do (c, g1, l1) <- o_next (mj_left s) g; Some (c, g1, mj_set_lc c (mj_set_left l1 s)).
Definition mj_next_right (s : mj_st) (g : regs) : option (Z * regs * mj_st) :=
  do (c, g1, r1) <- o_next (mj_right s) g; Some (c, g1, mj_set_rc c (mj_set_right r1 s)).
(** 125-156, the loop of handleNM after the first round; the tuples spooled so far are [b]. *)
Fixpoint mj_spool (k : nat) (s : mj_st) (g : regs) (b : list (list Z)) : option (regs * mj_st) :=
  match k with
  | O => None
  | S k' =>
      if negb (g rv =? mj_rkey s) then
        let (g1, s1) := mj_swap_right s g in Some (g1, mj_set_buf b b (mj_set_scan LoopSpooledRightHasData s1))
      else
        let b' := b ++ [mj_rc s :: map g Y] in
        do (c, g1, s1) <- mj_next_right s g;
        if c =? 0 then Some (g1, mj_set_buf b' b' (mj_set_scan LoopSpooledRightEmpty s1))
        else mj_spool k' s1 g1 b'
  end.
(** 114-157 *)
Definition mj_nm (s : mj_st) (g : regs) : option (regs * mj_st) :=
  let (g1, s1) := mj_swap_right s g in
  mj_spool fuel (mj_set_copy true s1) g1 [mj_rs s1].
(** The result of one round of the loop of next: [inl] for continue, [inr] for return. *)
Definition mj_res := (regs * mj_st + Z * regs * mj_st)%type.
Definition mj_cont (x : mj_state) (s : mj_st) (g : regs) : option mj_res := Some (inl (g, mj_set_scan x s)).
Definition mj_ret (x : mj_state) (c : Z) (s : mj_st) (g : regs) : option mj_res := Some (inr (c, g, mj_set_scan x s)).
Definition mj_both (s : mj_st) : Z := mj_lc s * mj_rc s.
(** 207-292 *)
Definition mj_compare (s : mj_st) (g : regs) : option mj_res :=
  if g lv <? g rv then
    if ropt then
      if g rv =? null32 then mj_ret ScanStepLeft (mj_lc s) s g
      else mj_ret ScanStepLeftCopyRight (mj_lc s) (mj_copy_right s g) (set_all Y null32 g)
    else mj_cont ScanStepLeft s g
  else if g rv <? g lv then
    if lopt then
      if g lv =? null32 then mj_ret ScanStepRight (mj_rc s) s g
      else mj_ret ScanStepRightCopyLeft (mj_rc s) (mj_copy_left s g) (set_all X null32 g)
    else mj_cont ScanStepRight s g
  else
    do (lc, g1, s1) <- mj_next_left (mj_copy_left s g) g;
    let (g2, s2) := mj_swap_left s1 g1 in
    if lc =? 0 then mj_ret LoopEmptyLeft (mj_both s2) s2 g2
    else
      do (rc, g3, s3) <- mj_next_right (mj_copy_right s2 g2) g2;
      let (g4, s4) := mj_swap_right s3 g3 in
      if rc =? 0 then mj_ret LoopEmptyRightHasData (mj_both s4) s4 g4
      else if g4 lv =? mj_lkey s4 then
        if g4 rv =? mj_rkey s4 then do (g5, s5) <- mj_nm s4 g4; Some (inl (g5, s5))
        else mj_ret LoopEqualLeftHasData (mj_both s4) s4 g4
      else if g4 rv =? mj_rkey s4 then mj_ret LoopEqualRightHasData (mj_both s4) s4 g4
      else mj_ret ScanHasBothSwapped (mj_both s4) s4 g4.
(** 181-204: the step on the left and on the right *)
Definition mj_step_right (s : mj_st) (g : regs) : option mj_res :=
  do (rc, g1, s1) <- mj_next_right s g;
  if rc =? 0 then if ropt then mj_compare s1 (set_all Y null32 g1) else mj_ret (mj_scan s) 0 s1 g1
  else mj_compare s1 g1.
Definition mj_step_left (both : bool) (s : mj_st) (g : regs) : option mj_res :=
  do (lc, g1, s1) <- mj_next_left s g;
  let go s g := if both then mj_step_right s g else mj_compare s g in
  if lc =? 0 then if lopt then go s1 (set_all X null32 g1) else mj_ret (mj_scan s) 0 s1 g1
  else go s1 g1.
(** 297-340: loopEmptyLeft *)
Definition mj_empty_left (s : mj_st) (g : regs) : option mj_res :=
  do (rc, g1, s1) <- mj_next_right s g;
  if rc =? 0 then mj_ret Empty 0 s1 g1
  else if g1 lv =? g1 rv then mj_ret LoopEmptyLeft (mj_both s1) s1 g1
  else if lopt then
    if negb (g1 lv =? null32) then
      if g1 rv <? g1 lv then
        let (g2, s2) := mj_swap_left s1 g1 in mj_ret LoopEmptyLeftCopyLeft (mj_rc s2) s2 (set_all X null32 g2)
      else mj_ret LoopEmptyLeft (mj_rc s1) s1 (set_all X null32 g1)
    else mj_ret LoopEmptyLeft (mj_rc s1) s1 g1
  else if g1 lv <? g1 rv then mj_ret Empty 0 s1 g1
  else mj_cont LoopEmptyLeft s1 g1.
(** 353-385: loopEmptyRight once the left row is there *)
Definition mj_empty_right (s : mj_st) (g : regs) : option mj_res :=
  if g lv =? g rv then mj_ret LoopEmptyRight (mj_both s) s g
  else if ropt then
    if negb (g rv =? null32) then
      if g lv <? g rv then
        let (g2, s2) := mj_swap_right s g in mj_ret LoopEmptyRightCopyRight (mj_lc s2) s2 (set_all Y null32 g2)
      else mj_ret LoopEmptyRight (mj_lc s) s (set_all Y null32 g)
    else mj_ret LoopEmptyRight (mj_lc s) s g
  else if g rv <? g lv then mj_ret Empty 0 s g
  else mj_cont LoopEmptyRight s g.
Definition mj_step_empty_right (s : mj_st) (g : regs) : option mj_res :=
  do (lc, g1, s1) <- mj_next_left s g;
  if lc =? 0 then mj_ret Empty 0 s1 g1 else mj_empty_right s1 g1.
(** 409-415 and 441-447: end of the block? *)
Definition mj_equal_left (s : mj_st) (g : regs) : option mj_res :=
  if negb (g lv =? mj_lkey s) then let (g1, s1) := mj_swap_right s g in mj_cont ScanHasBoth s1 g1
  else mj_ret LoopEqualLeft (mj_both s) s g.
Definition mj_equal_right (s : mj_st) (g : regs) : option mj_res :=
  if negb (g rv =? mj_rkey s) then let (g1, s1) := mj_swap_left s g in mj_cont ScanHasBoth s1 g1
  else mj_ret LoopEqualRight (mj_both s) s g.
(** 484-512: a left row to be combined with the buffer *)
Definition mj_spooled (s : mj_st) (g : regs) : option mj_res :=
  if g lv =? mj_lkey s then mj_cont (mj_scan s) (mj_set_buf (mj_buf s) (mj_buf s) s) g
  else
    match mj_scan s with
    | LoopSpooledRightEmpty =>
        if ropt then mj_cont LoopEmptyRight s (if g rv =? null32 then g else set_all Y null32 g)
        else mj_ret Empty 0 s g
    | _ => let (g1, s1) := mj_swap_right s g in mj_cont ScanHasBoth s1 g1
    end.
(** 159-518: one round *)
Definition mj_round (s : mj_st) (g : regs) : option mj_res :=
  match mj_scan s with
  | Empty => mj_ret Empty 0 s g
  | ScanStepLeftCopyRight => let (g1, s1) := mj_swap_right s g in mj_cont ScanStepLeft s1 g1
  | ScanStepRightCopyLeft => let (g1, s1) := mj_swap_left s g in mj_cont ScanStepRight s1 g1
  | ScanHasBothSwapped =>
      let (g1, s1) := mj_swap_left s g in let (g2, s2) := mj_swap_right s1 g1 in mj_compare s2 g2
  | ScanStepLeft => mj_step_left false s g
  | ScanStepBoth => mj_step_left true s g
  | ScanStepRight => mj_step_right s g
  | ScanHasBoth => mj_compare s g
  | LoopEmptyLeftCopyLeft => let (g1, s1) := mj_swap_left s g in mj_empty_left (mj_set_scan LoopEmptyLeft s1) g1
  | LoopEmptyLeft => mj_empty_left s g
  | LoopEmptyRightCopyRight => let (g1, s1) := mj_swap_right s g in mj_step_empty_right (mj_set_scan LoopEmptyRight s1) g1
  | LoopEmptyRight => mj_step_empty_right s g
  | LoopEmptyRightHasData => let (g1, s1) := mj_swap_left s g in mj_empty_right (mj_set_scan LoopEmptyRight s1) g1
  | LoopEqualLeftHasData => let (g1, s1) := mj_swap_left s g in mj_equal_left (mj_set_scan LoopEqualLeft s1) g1
  | LoopEqualLeft =>
      do (lc, g1, s1) <- mj_next_left s g;
      if lc =? 0 then
        if lopt then mj_cont ScanStepRight s1 (if g1 lv =? null32 then g1 else set_all X null32 g1)
        else mj_cont Empty s1 g1
      else mj_equal_left s1 g1
  | LoopEqualRightHasData => let (g1, s1) := mj_swap_right s g in mj_equal_right (mj_set_scan LoopEqualRight s1) g1
  | LoopEqualRight =>
      do (rc, g1, s1) <- mj_next_right s g;
      if rc =? 0 then
        if ropt then mj_cont ScanStepLeft s1 (if g1 rv =? null32 then g1 else set_all Y null32 g1)
        else mj_cont Empty s1 g1
      else mj_equal_right s1 g1
  | LoopSpooledRightEmpty | LoopSpooledRightHasData =>
      match mj_iter s with
      | t :: i => let s1 := mj_set_rc (hd 0 t) (mj_set_buf (mj_buf s) i s) in
                  mj_ret (mj_scan s) (mj_both s1) s1 (set_regs Y (tl t) g)
      | [] =>
          if mj_copy s then let (g1, s1) := mj_swap_left s g in mj_spooled (mj_set_copy false s1) g1
          else
            do (lc, g1, s1) <- mj_next_left s g;
            if lc =? 0 then
              if lopt then mj_cont LoopEmptyLeft s1 (if g1 lv =? null32 then g1 else set_all X null32 g1)
              else mj_ret Empty 0 s1 g1
            else mj_spooled s1 g1
      end
  end.
Fixpoint mj_loop (k : nat) (s : mj_st) (g : regs) : option (Z * regs * mj_st) :=
  match k with
  | O => None
  | S k' =>
      match mj_round s g with
      | None => None
      | Some (inr r) => Some r
      | Some (inl (g1, s1)) => mj_loop k' s1 g1
      end
  end.
Definition mj_next (s : mj_st) (g : regs) : option (Z * regs * mj_st) := mj_loop fuel s g.
(** 37-76 *)
Definition mj_first (s : mj_st) (g : regs) : option (Z * regs * mj_st) :=
  do (lc, g1, l1) <- o_first (mj_left s) g;
  let s1 := mj_set_lc lc (mj_set_left l1 s) in
  if (lc =? 0) && negb lopt then Some (0, g1, s1)
  else
    do (rc, g2, r1) <- o_first (mj_right s) g1;
    let s2 := mj_set_rc rc (mj_set_right r1 s1) in
    if lc =? 0 then
      if rc =? 0 then Some (0, g2, s2)
      else Some (rc, set_all X null32 g2, mj_set_scan LoopEmptyLeft s2)
    else if rc =? 0 then
      if ropt then Some (lc, set_all Y null32 g2, mj_set_scan LoopEmptyRight s2) else Some (0, g2, s2)
    else mj_next (mj_set_scan ScanHasBoth s2) g2.
Definition merge_join (left right : oper) : oper :=
  obj mj_first mj_next (mkMj left right 0 0 (0 :: map (fun _ => 0) X) (0 :: map (fun _ => 0) Y) [] [] Empty false).
End MergeJoin.
