(** Aggregates: src/trident/sparql/aggrhandler.cpp, include/trident/sparql/aggrhandler.h and
    rdf3x/src/rts/AggrFunctions.cpp.

    Simplifications: decimals are exact rationals (no rounding), integers are unbounded (no
    overflow), GROUP_CONCAT and SAMPLE throw as in the code.  [None] is an exception. *)
From Coq Require Export ZArith List Bool Lia QArith.
From Verif Require Export ItrModel.
Export ListNotations.
Local Open Scope Z_scope.

Inductive func := COUNT | MIN | MAX | SUM | AVG | OTHER.
Inductive vtype := INT | DEC | SYMBOL | NUL.
Scheme Equality for func.

(** aggrhandler.h 13-20, VarValue. *)
Record varv := mkVar { v_int : Z; v_count : Z; v_dec : Q; v_type : vtype }.
(** aggrhandler.h 23-39, FunctCall (the masks are the variables themselves). *)
Record call := mkCall { f_id : func; f_in : nat; f_out : nat; a1i : Z; a2i : Z; a1d : Q; a1b : bool; a2b : bool }.
(** The handler: distinct flags, sets of seen symbols, variables, calls, inputmask. *)
Record handler := mkH { h_distinct : func -> bool; h_sets : func -> list Z; h_vars : nat -> varv; h_calls : list call; h_mask : nat -> bool }.

Definition upd {A} (f : nat -> A) (k : nat) (v : A) : nat -> A := fun x => if Nat.eqb x k then v else f x.
Definition updf {A} (f : func -> A) (k : func) (v : A) : func -> A := fun x => if func_beq x k then v else f x.
Definition nomask : nat -> bool := fun _ => false.

(** aggrhandler.h 34-38, FunctCall::reset. *)
Definition call_reset (c : call) : call := mkCall (f_id c) (f_in c) (f_out c) 0 0 0 true true.
(** aggrhandler.cpp 61-65, reset: the sets are not cleared. *)
Definition h_reset (h : handler) : handler := mkH (h_distinct h) (h_sets h) (h_vars h) (map call_reset (h_calls h)) (h_mask h).

(** aggrhandler.cpp 28-30, startUpdate. *)
Definition startUpdate (h : handler) : handler := mkH (h_distinct h) (h_sets h) (h_vars h) (h_calls h) nomask.
Definition set_var (v : nat) (x : varv) (h : handler) : handler :=
  mkH (h_distinct h) (h_sets h) (upd (h_vars h) v x) (h_calls h) (upd (h_mask h) v true).
(** aggrhandler.cpp 67-103, updateVarInt, updateVarDec, updateVarSymbol, updateVarNull: each keeps
    the fields of the other types. *)
Definition updateVarInt (v : nat) (z n : Z) (h : handler) : handler := set_var v (mkVar z n (v_dec (h_vars h v)) INT) h.
Definition updateVarDec (v : nat) (q : Q) (n : Z) (h : handler) : handler := set_var v (mkVar (v_int (h_vars h v)) n q DEC) h.
Definition updateVarSymbol (v : nat) (z n : Z) (h : handler) : handler := set_var v (mkVar z n (v_dec (h_vars h v)) SYMBOL) h.
Definition updateVarNull (v : nat) (h : handler) : handler :=
  let x := h_vars h v in set_var v (mkVar (v_int x) (v_count x) (v_dec x) NUL) h.

(** Results are written to the output variable; [None] in the first component: no output. *)
Inductive result := RInt (z : Z) | RDec (q : Q).

(** aggrhandler.cpp 166-177, execCount. *)
Definition execCount (dist : bool) (x : varv) (c : call) : option (option result * call) :=
  match v_type x with
  | NUL => Some (Some (RInt (a1i c)), c)
  | _ => Some (None, mkCall (f_id c) (f_in c) (f_out c) (a1i c + (if dist then 1 else v_count x)) (a2i c) (a1d c) (a1b c) (a2b c))
  end.
(** aggrhandler.cpp 189-209 (and 230-246): a number is added; a symbol takes the branch of decimals. *)
Definition add_value (x : varv) (c : call) : call :=
  match v_type x with
  | INT => if a1b c then mkCall (f_id c) (f_in c) (f_out c) (a1i c + v_int x) (a2i c) (a1d c) (a1b c) (a2b c)
           else mkCall (f_id c) (f_in c) (f_out c) (a1i c) (a2i c) (a1d c + inject_Z (v_int x)) (a1b c) (a2b c)
  | _ => let d := if a1b c then inject_Z (a1i c) else a1d c in
         mkCall (f_id c) (f_in c) (f_out c) (a1i c) (a2i c) (d + v_dec x) false (a2b c)
  end.
(** aggrhandler.cpp 179-210, execSum. *)
Definition execSum (x : varv) (c : call) : option (option result * call) :=
  match v_type x with
  | NUL => Some (Some (if a1b c then RInt (a1i c) else RDec (a1d c)), c)
  | _ => Some (None, add_value x c)
  end.
(** aggrhandler.cpp 212-248, execAvg; the quotient of integers is truncated. *)
Definition execAvg (x : varv) (c : call) : option (option result * call) :=
  match v_type x with
  | NUL => Some (Some (if a2i c =? 0 then RInt 0
                       else if a1b c then RInt (Z.quot (a1i c) (a2i c)) else RDec (a1d c / inject_Z (a2i c))), c)
  | _ => Some (None, add_value x (mkCall (f_id c) (f_in c) (f_out c) (a1i c) (a2i c + 1) (a1d c) (a1b c) (a2b c)))
  end.
(** aggrhandler.cpp 251-311, execMax and 313-374, execMin; [better a b] is [a > b] or [a < b]. *)
Definition Qltb (a b : Q) : bool := negb (Qle_bool b a).
Definition set_int (c : call) (z : Z) : call := mkCall (f_id c) (f_in c) (f_out c) z (a2i c) (a1d c) true false.
Definition set_dec (c : call) (q : Q) : call := mkCall (f_id c) (f_in c) (f_out c) (a1i c) (a2i c) q false false.
Definition execExt (better : Q -> Q -> bool) (x : varv) (c : call) : option (option result * call) :=
  match v_type x with
  | NUL => if a2b c then None else Some (Some (if a1b c then RInt (a1i c) else RDec (a1d c)), c)
  | INT => Some (None, if a2b c then set_int c (v_int x)
           else if better (inject_Z (v_int x)) (if a1b c then inject_Z (a1i c) else a1d c) then set_int c (v_int x) else c)
  | _ => Some (None, if a2b c then set_dec c (v_dec x)
           else if better (v_dec x) (if a1b c then inject_Z (a1i c) else a1d c) then set_dec c (v_dec x) else c)
  end.
Definition execMax := execExt (fun a b => Qltb b a).
Definition execMin := execExt Qltb.

(** aggrhandler.cpp 137-164, executeFunction; the second component is the new set of the function. *)
Definition executeFunction (dist : bool) (seen : list Z) (x : varv) (c : call) : option (option result * call * list Z) :=
  let is_sym := match v_type x with SYMBOL => true | _ => false end in
  if dist && is_sym && existsb (Z.eqb (v_int x)) seen then Some (None, c, seen)
  else
    let seen' := if dist && is_sym then v_int x :: seen else seen in
    do (r, c') <- (match f_id c with
      | COUNT => execCount dist x c
      | SUM => execSum x c
      | AVG => execAvg x c
      | MIN => execMin x c
      | MAX => execMax x c
      | OTHER => None
      end);
    Some (r, c', seen').

Definition put_result (r : result) (x : varv) : varv :=
  match r with
  | RInt z => mkVar z (v_count x) (v_dec x) INT
  | RDec q => mkVar (v_int x) (v_count x) q DEC
  end.

(** aggrhandler.cpp 107-116: one pass over the calls. *)
Fixpoint run_calls (dist : func -> bool) (mask : nat -> bool) (calls : list call) (sets : func -> list Z) (vars : nat -> varv) (out : nat -> bool)
  : option (list call * (func -> list Z) * (nat -> varv) * (nat -> bool)) :=
  match calls with
  | [] => Some ([], sets, vars, out)
  | c :: rest =>
      if mask (f_in c) then
        do (r, c', s') <- executeFunction (dist (f_id c)) (sets (f_id c)) (vars (f_in c)) c;
        let sets' := updf sets (f_id c) s' in
        let '(vars', out') := match r with
          | Some v => (upd vars (f_out c) (put_result v (vars (f_out c))), upd out (f_out c) true)
          | None => (vars, out) end in
        do (cs, s2, v2, o2) <- run_calls dist mask rest sets' vars' out';
        Some (c' :: cs, s2, v2, o2)
      else
        do (cs, s2, v2, o2) <- run_calls dist mask rest sets vars out;
        Some (c :: cs, s2, v2, o2)
  end.
(** aggrhandler.cpp 105-118, stopUpdate: passes until no call gave an output.  The mask is tested
    on the output variables of the calls. *)
Fixpoint stop_loop (fuel : nat) (h : handler) : option handler :=
  match fuel with
  | O => None
  | S f =>
      do (cs, s, v, o) <- run_calls (h_distinct h) (h_mask h) (h_calls h) (h_sets h) (h_vars h) nomask;
      let h' := mkH (h_distinct h) s v cs o in
      if existsb (fun c => o (f_out c)) cs then stop_loop f h' else Some h'
  end.
Definition stopUpdate (h : handler) : option handler := stop_loop (S (S (length (h_calls h)))) h.

(** *** The operator (AggrFunctions.cpp) *)
(** A value of an input variable as updateVar classifies it: 93-135. *)
Inductive value := VInt (z : Z) | VDec (q : Q) | VSym (z : Z).
Definition updateVar (v : nat) (x : value) (n : Z) (h : handler) : handler :=
  match x with VInt z => updateVarInt v z n h | VDec q => updateVarDec v q n h | VSym z => updateVarSymbol v z n h end.
(** A row of the child: its group keys, the values of the input variables and its count (> 0). *)
Record row := mkRow { r_keys : list Z; r_vals : nat -> value; r_count : Z }.

(** 138-145 and 150-157: one row. *)
Definition add_row (vars : list nat) (r : row) (h : handler) : option handler :=
  stopUpdate (fold_left (fun h v => updateVar v (r_vals r v) (r_count r) h) vars (startUpdate h)).
(** 168-174: the end of the group. *)
Definition end_group (vars : list nat) (h : handler) : option handler :=
  stopUpdate (fold_left (fun h v => updateVarNull v h) vars (startUpdate h)).
Definition keys_eqb (a b : list Z) : bool := if list_eq_dec Z.eq_dec a b then true else false.

(** 149-158: the other rows of the group; returns the rows that are left. *)
Fixpoint same_rows (vars : list nat) (keys : list Z) (rows : list row) (h : handler) : option (handler * list row) :=
  match rows with
  | [] => Some (h, [])
  | r :: rest => if keys_eqb (r_keys r) keys then do h' <- add_row vars r h; same_rows vars keys rest h' else Some (h, rows)
  end.
(** 138-178, processGroup on the current row [r] and the rows after it; [out] are the output
    variables.  The key registers hold [keys] at the end.  The result of copyVars is the value of
    the variable before it is coded into a register (see [code_int]). *)
Definition get_result (x : varv) : option result := match v_type x with INT => Some (RInt (v_int x)) | DEC => Some (RDec (v_dec x)) | _ => None end.
Definition processGroup (vars out : list nat) (r : row) (rest : list row) (h : handler) : option (list Z * list (option result) * handler * list row) :=
  do h1 <- add_row vars r h;
  do (h2, rest') <- same_rows vars (r_keys r) rest h1;
  do h3 <- end_group vars h2;
  Some (r_keys r, map (fun v => get_result (h_vars h3 v)) out, h_reset h3, rest').
(** 181-207, first and next until 0. *)
Fixpoint all_groups (fuel : nat) (vars out : list nat) (rows : list row) (h : handler) : option (list (list Z * list (option result))) :=
  match fuel with
  | O => None
  | S f =>
      match rows with
      | [] => Some []
      | r :: rest =>
          do (k, vs, h', rest') <- processGroup vars out r rest h;
          do more <- all_groups f vars out rest' h';
          Some ((k, vs) :: more)
      end
  end.
(** 45-63, copyVars: the register of an integer result; dictmgmt.h 218-221 reads it back. *)
Definition code_int (z : Z) : Z := Z.lor (z mod 2 ^ 64) (2 ^ 62).
Definition read_int (term : Z) : Z := Z.land term (2 ^ 62 - 1).
Definition is_integer (term : Z) : bool := Z.land term (3 * 2 ^ 62) =? 2 ^ 62.
