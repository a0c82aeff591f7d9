(** Operators of SPARQL query plans, rdf3x/src/rts.

    rdf3x/include/rts/operator/Operator.hpp 22-56 declares an abstract class.  Its
    methods [first] and [next] produce one row each: they write the values of the row into
    registers shared by the whole plan (include/rts/runtime/Runtime.hpp, class Register)
    and return how often the row occurs, 0 meaning that there are no more rows.  An
    operator is modelled by its behaviour: what the two calls do to the registers, what they
    return and the operator after the call.  [None] models an exception, undefined behaviour
    or a call that does not return.

    Simplifications everywhere: numbers of occurrences are unbounded (no wrap-around at 2^64),
    statistics (observedOutputCardinality, when nothing depends on it), print, merge hints,
    domain descriptions (Register::domain, a pre-filter) and asynchronous tasks are left out. *)
From Verif Require Export ItrModel.
Local Open Scope Z_scope.

(** Register numbers and the values they hold (Register::value). *)
Definition regs := nat -> Z.
Definition set_reg (r : nat) (v : Z) (g : regs) : regs := fun x => if Nat.eqb x r then v else g x.
Fixpoint set_regs (rs : list nat) (vs : list Z) (g : regs) : regs :=
  match rs, vs with
  | r :: rs', v :: vs' => set_regs rs' vs' (set_reg r v g)
  | _, _ => g
  end.
Definition set_all (rs : list nat) (v : Z) (g : regs) : regs :=
  fold_left (fun g r => set_reg r v g) rs g.

(** ~0u as a 64-bit value, and UINT64_MAX. *)
Definition null32 : Z := 4294967295.
Definition null64 : Z := 18446744073709551615.

Set Primitive Projections.
CoInductive oper : Type := mkOper {
  o_first : regs -> option (Z * regs * oper);
  o_next : regs -> option (Z * regs * oper)
}.
Unset Primitive Projections.

(** An object of a class with state [S] and the methods [f] (first) and [n] (next). *)
CoFixpoint obj {S : Type} (f n : S -> regs -> option (Z * regs * S)) (s : S) : oper := {|
  o_first := fun g => match f s g with Some (c, g', s') => Some (c, g', obj f n s') | None => None end;
  o_next := fun g => match n s g with Some (c, g', s') => Some (c, g', obj f n s') | None => None end |}.

(** ** SingletonScan and EmptyScan, rdf3x/src/rts/SingletonScan.cpp 24-36, EmptyScan.cpp. *)
Definition singleton_scan : oper := obj (fun (_ : unit) g => Some (1, g, tt)) (fun _ g => Some (0, g, tt)) tt.
Definition empty_scan : oper := obj (fun (_ : unit) g => Some (0, g, tt)) (fun _ g => Some (0, g, tt)) tt.

(** ** ValuesScan, rdf3x/src/rts/ValuesScan.cpp 4-39.  State: processed. *)
Definition vs_toBeProcessed (rs : list nat) (values : list Z) : nat :=
  if (0 <? length rs)%nat then (length values / length rs)%nat else 0%nat.
Fixpoint vs_read (rs : list nat) (values : list Z) (processed : nat) (g : regs) : option (regs * nat) :=
  match rs with
  | [] => Some (g, processed)
  | r :: rs' => do v <- nth_error values processed;
                vs_read rs' values (S processed) (set_reg r v g)
  end.
Definition vs_next (rs : list nat) (values : list Z) (processed : nat) (g : regs)
  : option (Z * regs * nat) :=
  if (processed <? vs_toBeProcessed rs values)%nat
  then do (g', p') <- vs_read rs values processed g; Some (1, g', p')
  else Some (0, g, processed).
(** first and next have the same body. *)
Definition values_scan (rs : list nat) (values : list Z) : oper :=
  obj (vs_next rs values) (vs_next rs values) 0%nat.

(** ** NestedLoopJoin, rdf3x/src/rts/NestedLoopJoin.cpp 27-72. *)
Record nlj_st := mkNlj { nlj_left : oper; nlj_right : oper; nlj_leftCount : Z }.
(** 38-41 and 64-67: the loop that looks for tuples on the right side. *)
Fixpoint nlj_loop (fuel : nat) (s : nlj_st) (g : regs) : option (Z * regs * nlj_st) :=
  match fuel with
  | O => None
  | S k =>
      do (rc, g1, r1) <- o_first (nlj_right s) g;
      if rc =? 0 then
        do (lc, g2, l1) <- o_next (nlj_left s) g1;
        if lc =? 0 then Some (0, g2, mkNlj l1 r1 lc)
        else nlj_loop k (mkNlj l1 r1 lc) g2
      else Some (nlj_leftCount s * rc, g1, mkNlj (nlj_left s) r1 (nlj_leftCount s))
  end.
Definition nlj_first (fuel : nat) (s : nlj_st) (g : regs) : option (Z * regs * nlj_st) :=
  do (lc, g1, l1) <- o_first (nlj_left s) g;
  if lc =? 0 then Some (0, g1, mkNlj l1 (nlj_right s) lc)
  else nlj_loop fuel (mkNlj l1 (nlj_right s) lc) g1.
Definition nlj_next (fuel : nat) (s : nlj_st) (g : regs) : option (Z * regs * nlj_st) :=
  do (rc, g1, r1) <- o_next (nlj_right s) g;
  if negb (rc =? 0) then Some (nlj_leftCount s * rc, g1, mkNlj (nlj_left s) r1 (nlj_leftCount s))
  else
    do (lc, g2, l1) <- o_next (nlj_left s) g1;
    if lc =? 0 then Some (0, g2, mkNlj l1 r1 lc)
    else nlj_loop fuel (mkNlj l1 r1 lc) g2.
(** leftCount is uninitialised before the first call. *)
Definition nested_loop_join (fuel : nat) (left right : oper) (lc0 : Z) : oper :=
  obj (nlj_first fuel) (nlj_next fuel) (mkNlj left right lc0).

(** ** CartProd, rdf3x/src/rts/CartProd.cpp 10-22, 31-74 and 100-115.
    The vector buffer is a list of (count, values) entries and idxbuffer the number of
    entries passed, instead of one flat vector of numbers and an index into it. *)
Record cp_st := mkCp {
  cp_left : oper; cp_right : oper; cp_leftCount : Z; cp_exhausted : bool;
  cp_buffer : list (Z * list Z); cp_idx : nat }.
(** 59-64: the do-while loop over the right side; [c] is rightCount. *)
Fixpoint cp_read (fuel : nat) (rt : list nat) (r : oper) (c : Z) (g : regs) (buf : list (Z * list Z))
  : option (regs * oper * list (Z * list Z)) :=
  match fuel with
  | O => None
  | S k =>
      let buf' := buf ++ [(c, map g rt)] in
      do (c', g', r') <- o_next r g;
      if c' =? 0 then Some (g', r', buf') else cp_read k rt r' c' g' buf'
  end.
Definition cp_first (fuel : nat) (lt rt : list nat) (lopt ropt : bool) (s : cp_st) (g : regs)
  : option (Z * regs * cp_st) :=
  do (lc, g1, l1) <- o_first (cp_left s) g;
  let empty_left := lc =? 0 in
  if empty_left && negb lopt
  then Some (0, g1, mkCp l1 (cp_right s) lc (cp_exhausted s) (cp_buffer s) (cp_idx s))
  else
    let g2 := if empty_left then set_all lt null64 g1 else g1 in
    let lc' := if empty_left then 1 else lc in
    let ex := if empty_left then true else cp_exhausted s in
    do (rc, g3, r1) <- o_first (cp_right s) g2;
    if rc =? 0 then
      if ropt then
        let buf := cp_buffer s ++ [(1, map (fun _ => null64) rt)] in
        do c0 <- nth_error buf 0;
        Some (lc' * fst c0, g3, mkCp l1 r1 lc' ex buf 1)
      else Some (0, g3, mkCp l1 r1 lc' ex (cp_buffer s) (cp_idx s))
    else
      do (g4, r2, buf) <- cp_read fuel rt r1 rc g3 (cp_buffer s);
      do c0 <- nth_error buf 0;
      Some (lc' * fst c0, set_regs rt (snd c0) g4, mkCp l1 r2 lc' ex buf 1).
Definition cp_next (rt : list nat) (s : cp_st) (g : regs) : option (Z * regs * cp_st) :=
  let emit (lc : Z) (l : oper) (i : nat) (g : regs) :=
    do e <- nth_error (cp_buffer s) i;
    Some (lc * fst e, set_regs rt (snd e) g,
          mkCp l (cp_right s) lc (cp_exhausted s) (cp_buffer s) (S i)) in
  if (cp_idx s =? length (cp_buffer s))%nat then
    if cp_exhausted s then Some (0, g, s)
    else
      do (lc, g1, l1) <- o_next (cp_left s) g;
      if lc =? 0 then Some (0, g1, mkCp l1 (cp_right s) lc (cp_exhausted s) (cp_buffer s) (cp_idx s))
      else emit lc l1 0%nat g1
  else emit (cp_leftCount s) (cp_left s) (cp_idx s) g.
Definition cart_prod (fuel : nat) (lt rt : list nat) (lopt ropt : bool) (left right : oper) : oper :=
  obj (cp_first fuel lt rt lopt ropt) (cp_next rt) (mkCp left right 0 false [] 0).

(** ** Union, rdf3x/src/rts/Union.cpp 27-82.  A part with its mappings (pairs from, to) and
    initializations.  State: the parts and current. *)
Record un_part := mkPart { up_op : oper; up_map : list (nat * nat); up_init : list nat }.
Record un_st := mkUn { un_parts : list un_part; un_current : nat }.
Definition un_mapping (m : list (nat * nat)) (g : regs) : regs :=
  fold_left (fun g ft => set_reg (snd ft) (g (fst ft)) g) m g.
Definition un_put (l : list un_part) (i : nat) (o : oper) : list un_part :=
  match nth_error l i with
  | Some p => firstn i l ++ mkPart o (up_map p) (up_init p) :: skipn (S i) l
  | None => l
  end.
(** 30-46; the number of rounds is at most the number of parts, which bounds the recursion. *)
Fixpoint un_firstFromPart (fuel : nat) (s : un_st) (g : regs) : option (Z * regs * un_st) :=
  match fuel with
  | O => None
  | S k =>
      do p <- nth_error (un_parts s) (un_current s);
      do (c, g1, o1) <- o_first (up_op p) g;
      let parts' := un_put (un_parts s) (un_current s) o1 in
      if c =? 0 then
        if (length parts' <=? S (un_current s))%nat then Some (0, g1, mkUn parts' (S (un_current s)))
        else un_firstFromPart k (mkUn parts' (S (un_current s))) g1
      else Some (c, un_mapping (up_map p) (set_all (up_init p) null32 g1), mkUn parts' (un_current s))
  end.
Definition un_first (s : un_st) (g : regs) : option (Z * regs * un_st) :=
  match un_parts s with
  | [] => Some (0, g, mkUn [] 0)
  | _ => un_firstFromPart (length (un_parts s)) (mkUn (un_parts s) 0) g
  end.
Definition un_next (s : un_st) (g : regs) : option (Z * regs * un_st) :=
  if (length (un_parts s) <=? un_current s)%nat then Some (0, g, s)
  else
    do p <- nth_error (un_parts s) (un_current s);
    do (c, g1, o1) <- o_next (up_op p) g;
    let parts' := un_put (un_parts s) (un_current s) o1 in
    if c =? 0 then
      if (length parts' <=? S (un_current s))%nat then Some (0, g1, mkUn parts' (S (un_current s)))
      else un_firstFromPart (length parts') (mkUn parts' (S (un_current s))) g1
    else Some (c, un_mapping (up_map p) g1, mkUn parts' (un_current s)).
Definition union_op (parts : list un_part) : oper := obj un_first un_next (mkUn parts 0).

(** ** MergeUnion, rdf3x/src/rts/MergeUnion.cpp 27-122. *)
Inductive mu_state := mu_done | mu_stepLeft | mu_stepRight | mu_stepBoth | mu_leftEmpty | mu_rightEmpty.
Record mu_st := mkMu {
  mu_left : oper; mu_right : oper; mu_lc : Z; mu_rc : Z; mu_lv : Z; mu_rv : Z; mu_s : mu_state }.
(** 55-73 and 95-113: the comparison of the two current values. *)
Definition mu_compare (result : nat) (s : mu_st) (g : regs) : option (Z * regs * mu_st) :=
  let st x := mkMu (mu_left s) (mu_right s) (mu_lc s) (mu_rc s) (mu_lv s) (mu_rv s) x in
  if mu_lv s <? mu_rv s then Some (mu_lc s, set_reg result (mu_lv s) g, st mu_stepLeft)
  else if mu_rv s <? mu_lv s then Some (mu_rc s, set_reg result (mu_rv s) g, st mu_stepRight)
  else Some (mu_lc s + mu_rc s, set_reg result (mu_lv s) g, st mu_stepBoth).
Definition mu_first (result lreg rreg : nat) (s : mu_st) (g : regs) : option (Z * regs * mu_st) :=
  do (lc, g1, l1) <- o_first (mu_left s) g;
  if lc =? 0 then
    do (rc, g2, r1) <- o_first (mu_right s) g1;
    if rc =? 0 then Some (0, g2, mkMu l1 r1 lc rc (mu_lv s) (mu_rv s) mu_done)
    else Some (rc, set_reg result (g2 rreg) g2, mkMu l1 r1 lc rc (mu_lv s) (mu_rv s) mu_leftEmpty)
  else
    let lv := g1 lreg in
    do (rc, g2, r1) <- o_first (mu_right s) g1;
    if rc =? 0
    then Some (lc, set_reg result (g2 lreg) g2, mkMu l1 r1 lc rc lv (mu_rv s) mu_rightEmpty)
    else mu_compare result (mkMu l1 r1 lc rc lv (g2 rreg) (mu_s s)) g2.
(** 88-95, the part of next that steps the right side. *)
Definition mu_right_step (result rreg : nat) (s : mu_st) (g : regs) : option (Z * regs * mu_st) :=
  do (rc, g1, r1) <- o_next (mu_right s) g;
  if rc =? 0
  then Some (mu_lc s, set_reg result (mu_lv s) g1,
             mkMu (mu_left s) r1 (mu_lc s) rc (mu_lv s) (mu_rv s) mu_rightEmpty)
  else mu_compare result (mkMu (mu_left s) r1 (mu_lc s) rc (mu_lv s) (g1 rreg) (mu_s s)) g1.
Definition mu_next (result lreg rreg : nat) (s : mu_st) (g : regs) : option (Z * regs * mu_st) :=
  match mu_s s with
  | mu_done => Some (0, g, s)
  | mu_stepLeft | mu_stepBoth =>
      do (lc, g1, l1) <- o_next (mu_left s) g;
      if lc =? 0
      then Some (mu_rc s, set_reg result (mu_rv s) g1,
                 mkMu l1 (mu_right s) lc (mu_rc s) (mu_lv s) (mu_rv s) mu_leftEmpty)
      else
        let s1 := mkMu l1 (mu_right s) lc (mu_rc s) (g1 lreg) (mu_rv s) (mu_s s) in
        match mu_s s with
        | mu_stepLeft => mu_compare result s1 g1
        | _ => mu_right_step result rreg s1 g1
        end
  | mu_stepRight => mu_right_step result rreg s g
  | mu_leftEmpty =>
      do (rc, g1, r1) <- o_next (mu_right s) g;
      if rc =? 0 then Some (0, g1, mkMu (mu_left s) r1 (mu_lc s) rc (mu_lv s) (mu_rv s) mu_done)
      else Some (rc, set_reg result (g1 rreg) g1,
                 mkMu (mu_left s) r1 (mu_lc s) rc (mu_lv s) (mu_rv s) mu_leftEmpty)
  | mu_rightEmpty =>
      do (lc, g1, l1) <- o_next (mu_left s) g;
      if lc =? 0 then Some (0, g1, mkMu l1 (mu_right s) lc (mu_rc s) (mu_lv s) (mu_rv s) mu_done)
      else Some (lc, set_reg result (g1 lreg) g1,
                 mkMu l1 (mu_right s) lc (mu_rc s) (mu_lv s) (mu_rv s) mu_rightEmpty)
  end.
Definition merge_union (result lreg rreg : nat) (left right : oper) : oper :=
  obj (mu_first result lreg rreg) (mu_next result lreg rreg) (mkMu left right 0 0 0 0 mu_done).

(** ** Minus, rdf3x/src/rts/Minus.cpp 24-93 and include/rts/operator/Minus.hpp.
    The hash set of row numbers with the functions HashVectors and EqualVectors is the list
    of the rows stored in valuesHashMap; looking up -1 compares the vector row with all. *)
Record mi_st := mkMi { mi_main : oper; mi_minus : oper; mi_loaded : bool; mi_rows : list (list Z) }.
Fixpoint row_eqb (a b : list Z) : bool :=
  match a, b with
  | [], [] => true
  | x :: a', y :: b' => (x =? y) && row_eqb a' b'
  | _, _ => false
  end.
Definition row_in (r : list Z) (rows : list (list Z)) : bool := existsb (row_eqb r) rows.
(** 32-46.  Line 40 divides by the number of registers to check. *)
Fixpoint mi_load (fuel : nat) (chk : list (nat * nat)) (m : oper) (g : regs) (rows : list (list Z))
  : option (regs * oper * list (list Z)) :=
  match fuel with
  | O => None
  | S k =>
      let row := map (fun p => g (snd p)) chk in
      do rows' <- if row_in row rows then Some rows
                  else if (length row =? 0)%nat then None
                  else Some (rows ++ [row]);
      do (c, g1, m1) <- o_next m g;
      if c =? 0 then Some (g1, m1, rows') else mi_load k chk m1 g1 rows'
  end.
(** 50-67 and 73-91: [res] is the count of the current row of the main tree. *)
Fixpoint mi_loop (fuel : nat) (chk : list (nat * nat)) (s : mi_st) (res : Z) (g : regs)
  : option (Z * regs * mi_st) :=
  match fuel with
  | O => None
  | S k =>
      if row_in (map (fun p => g (fst p)) chk) (mi_rows s) then
        do (c, g1, m1) <- o_next (mi_main s) g;
        let s1 := mkMi m1 (mi_minus s) (mi_loaded s) (mi_rows s) in
        if c =? 0 then Some (0, g1, s1) else mi_loop k chk s1 c g1
      else Some (res, g, s)
  end.
Definition mi_first (fuel : nat) (chk : list (nat * nat)) (s : mi_st) (g : regs)
  : option (Z * regs * mi_st) :=
  do (res, g1, m1) <- o_first (mi_main s) g;
  if res =? 0 then Some (res, g1, mkMi m1 (mi_minus s) (mi_loaded s) (mi_rows s))
  else
    do (g2, s2) <-
      if mi_loaded s then Some (g1, mkMi m1 (mi_minus s) true (mi_rows s))
      else
        do (c, g2, n1) <- o_first (mi_minus s) g1;
        if c =? 0 then Some (g2, mkMi m1 n1 true (mi_rows s))
        else do (g3, n2, rows) <- mi_load fuel chk n1 g2 (mi_rows s);
             Some (g3, mkMi m1 n2 true rows);
    mi_loop fuel chk s2 res g2.
Definition mi_next (fuel : nat) (chk : list (nat * nat)) (s : mi_st) (g : regs)
  : option (Z * regs * mi_st) :=
  do (res, g1, m1) <- o_next (mi_main s) g;
  let s1 := mkMi m1 (mi_minus s) (mi_loaded s) (mi_rows s) in
  if res =? 0 then Some (res, g1, s1) else mi_loop fuel chk s1 res g1.
Definition minus_op (fuel : nat) (chk : list (nat * nat)) (main minus : oper) : oper :=
  obj (mi_first fuel chk) (mi_next fuel chk) (mkMi main minus false []).

(** ** Filter, rdf3x/src/rts/Filter.cpp 11-32 and 40-104.  [values] is the constructor's
    argument; the vector valid, indexed from min to max, marks the values. *)
Definition fi_min (values : list Z) : Z :=
  match values with [] => 1 | v :: _ => fold_left (fun m x => if x <? m then x else m) values v end.
Definition fi_max (values : list Z) : Z :=
  match values with [] => 0 | v :: _ => fold_left (fun m x => if m <? x then x else m) values v end.
Definition fi_valid (values : list Z) (v : Z) : bool :=
  (fi_min values <=? v) && (v <=? fi_max values)
  && existsb (fun x => x - fi_min values =? v - fi_min values) values.
Definition fi_pass (exclude : bool) (values : list Z) (v : Z) : bool :=
  if exclude then negb (fi_valid values v) else fi_valid values v.
Fixpoint fi_next (fuel : nat) (exclude : bool) (values : list Z) (reg : nat) (input : oper) (g : regs)
  : option (Z * regs * oper) :=
  match fuel with
  | O => None
  | S k =>
      do (c, g1, i1) <- o_next input g;
      if c =? 0 then Some (0, g1, i1)
      else if fi_pass exclude values (g1 reg) then Some (c, g1, i1)
      else fi_next k exclude values reg i1 g1
  end.
Definition fi_first (fuel : nat) (exclude : bool) (values : list Z) (reg : nat) (input : oper) (g : regs)
  : option (Z * regs * oper) :=
  do (c, g1, i1) <- o_first input g;
  if c =? 0 then Some (0, g1, i1)
  else if fi_pass exclude values (g1 reg) then Some (c, g1, i1)
  else fi_next fuel exclude values reg i1 g1.
Definition filter_op (fuel : nat) (exclude : bool) (values : list Z) (reg : nat) (input : oper) : oper :=
  obj (fi_first fuel exclude values reg) (fi_next fuel exclude values reg) input.

(** ** NestedLoopFilter, rdf3x/src/rts/NestedLoopFilter.cpp 15-66.  The constructor sorts
    the values; [values] are the sorted values. *)
Record nf_st := mkNf { nf_input : oper; nf_pos : nat }.
(** 34-41 and 58-65: the loop over the values from [pos] on. *)
Fixpoint nf_loop (values : list Z) (reg : nat) (input : oper) (pos : nat) (g : regs)
  : option (Z * regs * nf_st) :=
  match values with
  | [] => Some (0, g, mkNf input pos)
  | v :: values' =>
      do (c, g1, i1) <- o_first input (set_reg reg v g);
      if negb (c =? 0) then Some (c, g1, mkNf i1 pos)
      else nf_loop values' reg i1 (S pos) g1
  end.
Definition nf_first (values : list Z) (reg : nat) (s : nf_st) (g : regs) : option (Z * regs * nf_st) :=
  nf_loop values reg (nf_input s) 0 g.
Definition nf_next (values : list Z) (reg : nat) (s : nf_st) (g : regs) : option (Z * regs * nf_st) :=
  if (length values <=? nf_pos s)%nat then Some (0, g, s)
  else
    do (c, g1, i1) <- o_next (nf_input s) g;
    if negb (c =? 0) then Some (c, g1, mkNf i1 (nf_pos s))
    else nf_loop (skipn (S (nf_pos s)) values) reg i1 (S (nf_pos s)) g1.
Definition nested_loop_filter (values : list Z) (reg : nat) (input : oper) : oper :=
  obj (nf_first values reg) (nf_next values reg) (mkNf input 0).

(** ** DuplLimit, rdf3x/src/rts/DuplLimit.cpp 7-61.  [dup] is duplicateHandling == Duplicates.
    observedOutputCardinality starts at 0 (Operator.cpp). *)
Record dl_st := mkDl { dl_input : oper; dl_observed : Z; dl_entry : Z; dl_current : Z }.
Definition dl_next (dup : bool) (limit : Z) (s : dl_st) (g : regs) : option (Z * regs * dl_st) :=
  if dl_observed s <? limit then
    if (dl_current s <? dl_entry s) && dup
    then Some (1, g, mkDl (dl_input s) (dl_observed s + 1) (dl_entry s) (dl_current s + 1))
    else
      do (c, g1, i1) <- o_next (dl_input s) g;
      if negb (c =? 0) then Some (1, g1, mkDl i1 (dl_observed s + 1) c 1)
      else Some (0, g1, mkDl i1 (dl_observed s) c (dl_current s))
  else Some (0, g, s).
(** 28-36: the loop that skips the offset. *)
Fixpoint dl_skip (o : nat) (dup : bool) (limit : Z) (s : dl_st) (g : regs) : option (Z * regs * dl_st) :=
  match o with
  | O => Some (1, g, mkDl (dl_input s) (dl_observed s + 1) (dl_entry s) (dl_current s))
  | S k =>
      do (c, g1, s1) <- dl_next dup limit s g;
      if c =? 0 then Some (0, g1, s1)
      else dl_skip k dup limit (mkDl (dl_input s1) (dl_observed s1 - 1) (dl_entry s1) (dl_current s1)) g1
  end.
Definition dl_first (dup : bool) (limit : Z) (offset : nat) (s : dl_st) (g : regs)
  : option (Z * regs * dl_st) :=
  if dl_observed s <? limit then
    do (c, g1, i1) <- o_first (dl_input s) g;
    if negb (c =? 0)
    then dl_skip offset dup limit (mkDl i1 (dl_observed s) c (dl_current s + 1)) g1
    else Some (0, g1, mkDl i1 (dl_observed s) c (dl_current s))
  else Some (0, g, s).
Definition dupl_limit (dup : bool) (limit : Z) (offset : nat) (input : oper) : oper :=
  obj (dl_first dup limit offset) (dl_next dup limit) (mkDl input 0 0 0).

(** ** Reading a whole input: GroupBy.cpp 82-99, Sort.cpp (first), HashGroupify.cpp (first).
    [c] is the count just returned. *)
Fixpoint collect (fuel : nat) (rs : list nat) (o : oper) (c : Z) (g : regs) (acc : list (list Z * Z))
  : option (regs * oper * list (list Z * Z)) :=
  match fuel with
  | O => None
  | S k =>
      if c =? 0 then Some (g, o, acc)
      else
        let acc' := acc ++ [(map g rs, c)] in
        do (c', g', o') <- o_next o g; collect k rs o' c' g' acc'
  end.
Definition collect_all (fuel : nat) (rs : list nat) (o : oper) (g : regs) (acc : list (list Z * Z))
  : option (regs * oper * list (list Z * Z)) :=
  do (c, g1, o1) <- o_first o g; collect fuel rs o1 c g1 acc.

(** ** GroupBy, rdf3x/src/rts/GroupBy.cpp.  [rs]: the registers of the bindings in the order
    of their keys; [fields]: the positions computed by calculateFieldsToCompare (23-46),
    which throws if a variable is not bound.  A stored tuple is the pair of its values and
    its count (with distinct the count is not stored, and not used). *)
Fixpoint gb_index (keys : list nat) (v : nat) (i : nat) : option nat :=
  match keys with
  | [] => None
  | k :: keys' => if Nat.eqb k v then Some i else gb_index keys' v (S i)
  end.
Fixpoint gb_fields (keys vars : list nat) : option (list nat) :=
  match vars with
  | [] => Some []
  | v :: vars' => do i <- gb_index keys v 0; do fs <- gb_fields keys vars'; Some (i :: fs)
  end.
(** 48-67, ValueSorter. *)
Fixpoint gb_less (fields : list nat) (a b : list Z * Z) : bool :=
  match fields with
  | [] => false
  | f :: fields' =>
      let x := nth f (fst a) 0 in let y := nth f (fst b) 0 in
      if x <? y then true else if y <? x then false else gb_less fields' a b
  end.
(** 69-77, sameThanPrevious, on the two tuples.  The index is a uint8_t: with more than 255
    fields the loop would not end. *)
Definition gb_same (fields : list nat) (a b : list Z * Z) : bool :=
  forallb (fun f => nth f (fst a) 0 =? nth f (fst b) 0) fields.
Record gb_st := mkGb { gb_child : oper; gb_values : list (list Z * Z); gb_fs : list nat; gb_idx : nat }.
Section Sorts.
(** std::sort with the given order. *)
Variable sortf : (list Z * Z -> list Z * Z -> bool) -> list (list Z * Z) -> list (list Z * Z).

Definition gb_first (fuel : nat) (rs keys vars : list nat) (distinct : bool) (s : gb_st) (g : regs)
  : option (Z * regs * gb_st) :=
  do (g1, o1, vals) <- collect_all fuel rs (gb_child s) g (gb_values s);
  do fs <- gb_fields keys vars;
  let vals' := sortf (gb_less fs) vals in
  let s' := mkGb o1 vals' fs 1 in
  match vals' with
  | [] => Some (0, g1, s')
  | t :: _ => Some ((if distinct then 1 else snd t), set_regs rs (fst t) g1, s')
  end.
(** 130-132. *)
Fixpoint gb_skip (fields : list nat) (prev : list Z * Z) (l : list (list Z * Z)) (i : nat) : nat :=
  match l with
  | [] => i
  | t :: l' => if gb_same fields prev t then gb_skip fields t l' (S i) else i
  end.
Definition gb_next (rs : list nat) (distinct : bool) (s : gb_st) (g : regs) : option (Z * regs * gb_st) :=
  do i <- (if distinct then
             match nth_error (gb_values s) (gb_idx s - 1) with
             | Some prev => Some (gb_skip (gb_fs s) prev (skipn (gb_idx s) (gb_values s)) (gb_idx s))
             | None => Some (gb_idx s) (* index >= values.size() *)
             end
           else Some (gb_idx s));
  match nth_error (gb_values s) i with
  | None => Some (0, g, mkGb (gb_child s) (gb_values s) (gb_fs s) i)
  | Some t => Some ((if distinct then 1 else snd t), set_regs rs (fst t) g,
                    mkGb (gb_child s) (gb_values s) (gb_fs s) (S i))
  end.
Definition group_by (fuel : nat) (rs keys vars : list nat) (distinct : bool) (child : oper) : oper :=
  obj (gb_first fuel rs keys vars distinct) (gb_next rs distinct) (mkGb child [] [] 0).

(** ** Sort, rdf3x/src/rts/Sort.cpp.
    [lookup] gives the text of a term (TridentLayer.cpp 113-134, DictMgmt::getText; numbers have
    none).  The types compared at 78-83 are the same on both sides, since they are derived from
    supportBuffer, which this lookup does not fill; [cut] is 2 if that buffer starts with '<' and 0
    otherwise, the number of bytes by which the length is reduced.  [fcmp] compares two numbers
    of which at least one is a float. *)
Section Sorter.
Variables (lookup : Z -> option (list Z)) (cut : nat) (fcmp : Z -> Z -> Z).
(** dictmgmt.h 213-216, 241-244. *)
Definition isnumeric (v : Z) : bool := 2 ^ 62 <=? v.
Definition isint (v : Z) : bool := (2 ^ 62 <=? v) && (v <? 2 ^ 63).
(** dictmgmt.h 246-287. *)
Definition num_compare (v1 v2 : Z) : Z :=
  if isint v1 && isint v2 then
    let a := v1 mod 2 ^ 62 in let b := v2 mod 2 ^ 62 in
    if a <? b then -1 else if b <? a then 1 else 0
  else fcmp v1 v2.
(** memcmp on the common length. *)
Fixpoint memcmp (a b : list Z) : Z :=
  match a, b with
  | x :: a', y :: b' => if x <? y then -1 else if y <? x then 1 else memcmp a' b'
  | _, _ => 0
  end.
(** 54-93; [None]: go on with the next variable. *)
Definition so_value_less (v1 v2 : Z) : option bool :=
  if v1 =? v2 then None
  else if v1 =? null64 then Some true
  else if v2 =? null64 then Some false
  else if isnumeric v1 && isnumeric v2 then
    let c := num_compare v1 v2 in if c =? 0 then None else Some (c <? 0)
  else
    match lookup v1, lookup v2 with
    | Some t1, Some t2 =>
        let a := firstn (length t1 - cut) t1 in let b := firstn (length t2 - cut) t2 in
        let c := memcmp a b in
        if c <? 0 then Some true else if 0 <? c then Some false
        else if (length a <? length b)%nat then Some true
        else if (length b <? length a)%nat then Some false
        else if v1 <? v2 then Some true else if v2 <? v1 then Some false else None
    | _, _ => None
    end.
(** 40-110.  Slots are tested with ~slot on a uint64_t, which is never 0 for the slots the constructor makes,
    so the branch for counts is never taken. *)
Fixpoint so_less (order : list (Z * bool)) (a b : list Z * Z) : bool :=
  match order with
  | [] => false
  | (slot, descending) :: order' =>
      let x := nth (Z.to_nat slot) (fst a) 0 in let y := nth (Z.to_nat slot) (fst b) 0 in
      match (if (descending : bool) then so_value_less y x else so_value_less x y) with
      | Some r => r
      | None => so_less order' a b
      end
  end.
(** 113-138, the constructor: [None] stands for the count; a register that is not among the
    values gets ~0u too, and since the slot has 64 bits it is kept. *)
Definition so_order (rs : list nat) (registerOrder : list (option nat * bool)) : list (Z * bool) :=
  map (fun rd => (match fst rd with
                  | Some r => match gb_index rs r 0 with Some i => Z.of_nat i | None => null32 end
                  | None => null32
                  end, snd rd)) registerOrder.
Record so_st := mkSo { so_input : oper; so_rest : list (list Z * Z) }.
(** next, 174-189. *)
Definition so_next (rs : list nat) (s : so_st) (g : regs) : option (Z * regs * so_st) :=
  match so_rest s with
  | [] => Some (0, g, s)
  | t :: l => Some (snd t, set_regs rs (fst t) g, mkSo (so_input s) l)
  end.
(** first, 147-172.  A comparison with a slot past the values reads out of bounds ([None]). *)
Definition so_first (fuel : nat) (rs : list nat) (registerOrder : list (option nat * bool))
  (s : so_st) (g : regs) : option (Z * regs * so_st) :=
  do (g1, o1, vals) <- collect_all fuel rs (so_input s) g [];
  let order := so_order rs registerOrder in
  if (1 <? length vals)%nat && negb (forallb (fun sd => fst sd <? Z.of_nat (length rs)) order)
  then None
  else so_next rs (mkSo o1 (sortf (so_less order) vals)) g1.
Definition sort_op (fuel : nat) (rs : list nat) (registerOrder : list (option nat * bool)) (input : oper) : oper :=
  obj (so_first fuel rs registerOrder) (so_next rs) (mkSo input []).
End Sorter.
End Sorts.

(** ** HashGroupify, rdf3x/src/rts/HashGroupify.cpp.  Groups have numbers in the order of their
    creation; a slot of the table is the chain of the numbers in it; [enum] gives the order in which
    VarPool::enumAll (include/infra/util/VarPool.hpp 114-133) visits the groups, by address. *)
Record hg_group := mkGrp { hg_hash : Z; hg_count : Z; hg_vals : list Z }.
Record hg_tab := mkHg { hg_groups : list hg_group; hg_slots : list (list nat); hg_load : nat }.
Definition u64 (x : Z) : Z := x mod 2 ^ 64.
Definition hg_hashf (vals : list Z) : Z :=
  fold_left (fun h v => Z.lxor (Z.lor (u64 (Z.shiftl h 15)) (Z.shiftr h 49)) v) vals 0.
Definition hg_slot (hash : Z) (size : nat) : nat := Z.to_nat (Z.land hash (Z.of_nat size - 1)).
Fixpoint hg_find (groups : list hg_group) (chain : list nat) (vals : list Z) : option nat :=
  match chain with
  | [] => None
  | i :: chain' =>
      match nth_error groups i with
      | Some gr => if row_eqb (hg_vals gr) vals then Some i else hg_find groups chain' vals
      | None => None
      end
  end.
Fixpoint upd {A} (l : list A) (i : nat) (f : A -> A) : list A :=
  match l, i with
  | [], _ => []
  | x :: l', O => f x :: l'
  | x :: l', S i' => x :: upd l' i' f
  end.
(** static_cast<uint64_t>(0.8*hashTableSize) *)
Definition hg_maxLoad (size : nat) : nat := (4 * size / 5)%nat.
Section Enum.
Variable enum : list hg_group -> list nat.
Definition hg_rehash (groups : list hg_group) (size : nat) : list (list nat) :=
  fold_left (fun slots i =>
    match nth_error groups i with
    | Some gr => upd slots (hg_slot (hg_hash gr) size) (fun chain => i :: chain)
    | None => slots
    end) (enum groups) (repeat [] size).
Definition hg_add (t : hg_tab) (row : list Z * Z) : hg_tab :=
  let size := length (hg_slots t) in
  let hash := hg_hashf (fst row) in
  let slot := hg_slot hash size in
  match hg_find (hg_groups t) (nth slot (hg_slots t) []) (fst row) with
  | Some i => mkHg (upd (hg_groups t) i (fun gr => mkGrp (hg_hash gr) (hg_count gr + snd row) (hg_vals gr)))
                   (hg_slots t) (hg_load t)
  | None =>
      let groups := hg_groups t ++ [mkGrp hash (snd row) (fst row)] in
      let load := S (hg_load t) in
      if (hg_maxLoad size <=? load)%nat
      then mkHg groups (hg_rehash groups (2 * size)) load
      else mkHg groups (upd (hg_slots t) slot (fun chain => length (hg_groups t) :: chain)) load
  end.
Definition hg_build (rows : list (list Z * Z)) : hg_tab :=
  fold_left hg_add rows (mkHg [] (repeat [] 64) 0).
(** The chain formed at the end, as rows. *)
Definition hg_chain (t : hg_tab) : list (list Z * Z) :=
  flat_map (fun i => match nth_error (hg_groups t) i with
                     | Some gr => [(hg_vals gr, hg_count gr)] | None => [] end) (enum (hg_groups t)).
Definition hg_first (fuel : nat) (rs : list nat) (s : so_st) (g : regs) : option (Z * regs * so_st) :=
  do (g1, o1, vals) <- collect_all fuel rs (so_input s) g [];
  so_next rs (mkSo o1 (hg_chain (hg_build vals))) g1.
Definition hash_groupify (fuel : nat) (rs : list nat) (input : oper) : oper :=
  obj (hg_first fuel rs) (so_next rs) (mkSo input []).
End Enum.

(** ** ResultsPrinter::first, rdf3x/src/rts/ResultsPrinter.cpp 238-470: which rows are output.
    [out] are the output registers; a printed row is the list of their values (the lookup of the
    texts and their formatting are left out). *)
(** 269-288: counting only. *)
Fixpoint rp_count (fuel : nat) (limit : Z) (input : oper) (c o nrows : Z) (g : regs) : option Z :=
  match fuel with
  | O => None
  | S k =>
      let skip := (0 <? o) && (c <=? o) in
      let o' := if skip then o - c else 0 in
      let nrows' := if skip then nrows
                    else let n := nrows + (if 0 <? o then c - o else c) in if limit <? n then limit else n in
      do (c', g', i') <- o_next input g;
      if negb (c' =? 0) && (nrows' <? limit) then rp_count k limit i' c' o' nrows' g'
      else Some nrows'
  end.
(** 333-342: print up to [c] copies; the test of the limit comes after each. *)
Fixpoint rp_copies (c : nat) (limit : Z) (row : list Z) (nrows : Z) : list (list Z) * Z :=
  match c with
  | O => ([], nrows)
  | S k => if limit <=? nrows + 1 then ([row], nrows + 1)
           else let '(l, n) := rp_copies k limit row (nrows + 1) in (row :: l, n)
  end.
(** 296-345: printing without collecting. *)
Fixpoint rp_print (fuel : nat) (limit : Z) (out : list nat) (input : oper) (c o nrows : Z) (g : regs)
  : option (list (list Z)) :=
  match fuel with
  | O => None
  | S k =>
      if (0 <? o) && (c <=? o) then
        do (c', g', i') <- o_next input g;
        if negb (c' =? 0) then rp_print k limit out i' c' (o - c) nrows g' else Some []
      else
        let c1 := if 0 <? o then c - o else c in
        let '(rows, nrows') := rp_copies (Z.to_nat c1) limit (map g out) nrows in
        if limit <=? nrows' then Some rows
        else
          do (c', g', i') <- o_next input g;
          if negb (c' =? 0)
          then do l <- rp_print k limit out i' c' 0 nrows' g'; Some (rows ++ l)
          else Some rows
  end.
(** 352-369: collecting; [entries] is entryCount. *)
Fixpoint rp_collect (fuel : nat) (limit : Z) (out : list nat) (input : oper) (c o entries : Z) (g : regs)
  : option (list (Z * list Z)) :=
  match fuel with
  | O => None
  | S k =>
      let again o entries (acc : list (Z * list Z)) :=
        do (c', g', i') <- o_next input g;
        if negb (c' =? 0)
        then do l <- rp_collect k limit out i' c' o entries g'; Some (acc ++ l) else Some acc in
      if (0 <? o) && (c <=? o) then again (o - c) entries []
      else
        let c1 := if 0 <? o then c - o else c in
        let e := (c1, map g out) in
        if limit <=? entries + 1 then Some [e] else again 0 (entries + 1) [e]
  end.
(** The number of rows of a silent query, the rows printed, and the rows of the JSON result,
    all for the default handling of duplicates (ExpandDuplicates, formatJSON 214-224). *)
Definition rp_silent (fuel : nat) (limit offset : Z) (input : oper) (g : regs) : option Z :=
  do (c, g1, i1) <- o_first input g;
  if c =? 0 then Some 0 else rp_count fuel limit i1 c offset 0 g1.
Definition rp_text (fuel : nat) (limit offset : Z) (out : list nat) (input : oper) (g : regs)
  : option (list (list Z)) :=
  do (c, g1, i1) <- o_first input g;
  if c =? 0 then Some [] else rp_print fuel limit out i1 c offset 0 g1.
Definition rp_json (fuel : nat) (limit offset : Z) (out : list nat) (input : oper) (g : regs)
  : option (list (list Z)) :=
  do (c, g1, i1) <- o_first input g;
  if c =? 0 then Some []
  else do es <- rp_collect fuel limit out i1 c offset 0 g1;
       Some (flat_map (fun e => repeat (snd e) (Z.to_nat (fst e))) es).
