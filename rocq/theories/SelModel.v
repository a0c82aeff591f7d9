(** FILTER: the predicates of rdf3x/src/rts/Selection.cpp, the operator itself, and how a filter of
    the query becomes a predicate (rdf3x/src/cts/SemanticAnalysis.cpp, rdf3x/src/cts/CodeGen.cpp).

    Strings are Coq strings (of bytes).  Simplifications: doubles and floats are exact rationals
    without NaN and infinity, their texts have no exponents; subtypes are left out (lookupById
    never gives a type that has one, so that subTypeValue is the empty string).  [None] is an
    exception or the use of a field that was never set. *)
From Coq Require Export String Ascii.
From Coq Require Import QArith.
From Verif Require Export OpModel.
Local Open Scope string_scope.
Local Open Scope Z_scope.

(** *** Numbers in texts *)
Definition digit (c : ascii) : option Z :=
  let n := Z.of_N (N_of_ascii c) in if (48 <=? n) && (n <=? 57) then Some (n - 48) else None.
Definition is_space (c : ascii) : bool := let n := Z.of_N (N_of_ascii c) in (n =? 32) || ((9 <=? n) && (n <=? 13)).
Fixpoint skip_space (s : string) : string :=
  match s with String c r => if is_space c then skip_space r else s | "" => s end.
(** The digits at the start: value, how many, and the rest. *)
Fixpoint read_digits (s : string) (acc : Z) (n : nat) : Z * nat * string :=
  match s with
  | String c r => match digit c with Some d => read_digits r (10 * acc + d) (S n) | None => (acc, n, s) end
  | "" => (acc, n, s)
  end.
Definition read_sign (s : string) : Z * string :=
  match s with
  | String "-" r => (-1, r)
  | String "+" r => (1, r)
  | _ => (1, s)
  end.
(** "%d" of sscanf, and the part of std::stoll that reads: spaces, sign, digits. *)
Definition scan_int (s : string) : option (Z * string) :=
  let (sg, r) := read_sign (skip_space s) in
  let '(v, n, r') := read_digits r 0 0 in
  if Nat.eqb n 0 then None else Some (sg * v, r').
(** std::stoll: throws without digits and outside of 64 bits. *)
Definition stoll (s : string) : option Z :=
  match scan_int s with
  | Some (v, _) => if (- 2 ^ 63 <=? v) && (v <? 2 ^ 63) then Some v else None
  | None => None
  end.
(** What std::stod and atof read: spaces, sign, digits, point, digits. *)
Definition scan_dec (s : string) : option Q :=
  let (sg, r) := read_sign (skip_space s) in
  let '(v, n, r1) := read_digits r 0 0 in
  match r1 with
  | String "." r2 =>
    let '(w, m, _) := read_digits r2 v 0 in
    if Nat.eqb (n + m) 0 then None else Some (inject_Z (sg * w) / inject_Z (10 ^ Z.of_nat m))%Q
  | _ => if Nat.eqb n 0 then None else Some (inject_Z (sg * v))
  end.
Definition atof (s : string) : Q := match scan_dec s with Some q => q | None => 0%Q end.
Definition qlt (a b : Q) : bool := negb (Qle_bool b a).

(** *** Types of literals *)
Inductive numtype := NDECIMAL | NINT | NDATETIME | NDATE | NUNKNOWN.
(** Runtime.hpp 37-43, IdValue: type and value. *)
Inductive idval := IvDec (q : Q) | IvInt (tp : numtype) (v : Z).

Definition quote : string := String (ascii_of_nat 34) "".
(** Selection.cpp 72-77, _endsWith. *)
Definition ends_with (s suffix : string) : bool :=
  (String.length suffix <=? String.length s)%nat &&
  String.eqb (substring (String.length s - String.length suffix) (String.length suffix) s) suffix.
Definition xsd (n : string) : string := "http://www.w3.org/2001/XMLSchema#" ++ n.
Definition sfx (n : string) : string := "^^<" ++ xsd n ++ ">".
(** Selection.cpp 79-95, getNumType. *)
Definition getNumType (s : string) : numtype :=
  if ends_with s (sfx "double") || ends_with s (sfx "float") then NDECIMAL
  else if ends_with s (sfx "integer") then NINT
  else if ends_with s (sfx "dateTime") then NDATETIME
  else if ends_with s (sfx "date") then NDATE
  else NUNKNOWN.
(** 44-45, 50: the part between the quotes; without a second quote everything after the first character. *)
Definition inner (s : string) : string :=
  match index 1 quote s with
  | Some p => substring 1 (p - 1) s
  | None => substring 1 (String.length s - 1) s
  end.
(** 34-42, _getLong. *)
Definition getLong (s : string) : option Z :=
  match index 1 quote s with
  | Some p => stoll (substring 1 (p - 1) s)
  | None => stoll s
  end.
(** 44-47, _getDouble. *)
Definition getDouble (s : string) : option Q := scan_dec (inner s).
Definition expect (c : ascii) (s : string) : option string :=
  match s with String d r => if Ascii.eqb c d then Some r else None | "" => None end.
(** 49-70, _getTime. *)
Definition getTime (s : string) (tp : numtype) : option Z :=
  let time := inner s in
  do (year, r) <- scan_int time; do r <- expect "-" r;
  do (month, r) <- scan_int r; do r <- expect "-" r;
  do (day, r) <- scan_int r;
  do (hour, min, sec) <-
    match tp with
    | NDATE => Some (0, 0, 0)
    | _ =>
      do r <- expect "T" r; do (hour, r) <- scan_int r; do r <- expect ":" r;
      do (min, r) <- scan_int r; do r <- expect ":" r; do (sec, _) <- scan_int r;
      Some (hour, min, sec)
    end;
  Some (year * 2 ^ 48 + month * 2 ^ 40 + day * 2 ^ 32 + hour * 2 ^ 24 + min * 2 ^ 16 + sec).
(** 103-117: the value kept for a text; [Some None] if it has none. *)
Definition classify (s : string) : option (option idval) :=
  match getNumType s with
  | NDECIMAL => do q <- getDouble s; Some (Some (IvDec q))
  | NINT => do v <- getLong s; Some (Some (IvInt NINT v))
  | NUNKNOWN => Some None
  | tp => do v <- getTime s tp; Some (Some (IvInt tp v))
  end.
(** 128-141, numLess, on the values kept. *)
Definition val_less (v1 v2 : idval) : bool :=
  match v1, v2 with
  | IvInt _ a, IvInt _ b => a <? b
  | IvInt _ a, IvDec b => qlt (inject_Z a) b
  | IvDec a, IvInt _ b => qlt a (inject_Z b)
  | IvDec a, IvDec b => qlt a b
  end.

(** *** Results *)
Inductive rtype := TURI | TLiteral | TCustomLanguage | TDecimal | TBoolean.
(** Selection.hpp 28-47, Result: four flags and the fields; [None] is a field that was never set. *)
Record res := mkRes {
  has_id : bool; has_str : bool; has_type : bool; has_bool : bool;
  r_id : option Z; r_value : string; r_type : option rtype; r_bool : option bool }.
Definition res0 : res := mkRes false false false false None "" None None.
(** Selection.cpp 226-257, setBoolean, setId, setLiteral, setIRI. *)
Definition setBoolean (b : bool) (r : res) : res := mkRes false false true true (r_id r) (r_value r) (Some TBoolean) (Some b).
Definition setId (i : Z) (r : res) : res := mkRes true false false false (Some i) (r_value r) (r_type r) (r_bool r).
Definition setLiteral (v : string) (r : res) : res := mkRes false true true false (r_id r) v (Some TLiteral) (r_bool r).
Definition setIRI (v : string) (r : res) : res := mkRes false true true false (r_id r) v (Some TURI) (r_bool r).

(** The dictionary (getText, getNumber), how a double is printed, and the floats: the number a
    pattern of 32 bits stands for, and the pattern of a number. *)
Record world := mkWorld {
  w_text : Z -> option string; w_number : string -> option Z;
  w_fmt : Q -> string; w_fdec : Z -> Q; w_fenc : Q -> Z }.

Section Eval.
Variable w : world.

(** src/layers/TridentLayer.cpp 86-111, lookupById: the text without angle brackets, and the type. *)
Definition lookupById (i : Z) : option (string * rtype) :=
  match w_text w i with
  | Some t => match t with
              | String "<" _ => Some (substring 1 (String.length t - 2) t, TURI)
              | _ => Some (t, TLiteral)
              end
  | None => None
  end.
(** Selection.cpp 147-169, ensureString. *)
Definition ensureString (r : res) : option res :=
  if has_str r then Some r
  else if has_id r then
    do i <- r_id r;
    match (if i =? null64 then None else lookupById i) with
    | Some (s, ty) => Some (mkRes (has_id r) true true (has_bool r) (r_id r) s (Some ty) (r_bool r))
    | None => Some (mkRes (has_id r) true (has_type r) (has_bool r) (r_id r) "NULL" (r_type r) (r_bool r))
    end
  else if has_bool r then
    do b <- r_bool r;
    Some (mkRes (has_id r) true (has_type r) (has_bool r) (r_id r) (if b then "true" else "false") (r_type r) (r_bool r))
  else Some (mkRes (has_id r) true (has_type r) (has_bool r) (r_id r) "" (r_type r) (r_bool r)).
(** 171-191, ensureType. *)
Definition ensureType (r : res) : option res :=
  if has_type r then Some r
  else if has_id r then
    do i <- r_id r;
    match (if i =? null64 then None else lookupById i) with
    | Some (s, ty) => Some (mkRes (has_id r) true true (has_bool r) (r_id r) s (Some ty) (r_bool r))
    | None => Some (mkRes (has_id r) (has_str r) true (has_bool r) (r_id r) (r_value r) (Some TLiteral) (r_bool r))
    end
  else Some (mkRes (has_id r) (has_str r) true (has_bool r) (r_id r) (r_value r)
               (Some (if has_bool r then TBoolean else TLiteral)) (r_bool r)).
(** 215-224, ensureBoolean. *)
Definition ensureBoolean (r : res) : option res :=
  if has_bool r then Some r
  else
    do r1 <- ensureString r;
    Some (mkRes (has_id r1) (has_str r1) (has_type r1) true (r_id r1) (r_value r1) (r_type r1)
            (Some (String.eqb (r_value r1) "true"))).

(** Runtime.hpp 62, valueMap: the values of the ids seen so far. *)
Definition vmap := Z -> option idval.
(** Selection.cpp 97-122, numeric. *)
Definition numeric (r : res) (m : vmap) : option (bool * res * vmap) :=
  if has_id r then
    do i <- r_id r;
    match m i with
    | Some _ => Some (true, r, m)
    | None =>
      do r1 <- ensureString r;
      do c <- classify (r_value r1);
      match c with
      | Some v => Some (true, r1, fun j => if j =? i then Some v else m j)
      | None => Some (false, r1, m)
      end
    end
  else Some (false, r, m).
(** 124-126, isNumericComparison. *)
Definition isNumericComparison (l r : res) (m : vmap) : option (bool * res * res * vmap) :=
  do (b, l1, m1) <- numeric l m;
  if b : bool then do (c, r1, m2) <- numeric r m1; Some (c, l1, r1, m2)
  else Some (false, l1, r, m1).
(** 128-130: the values of two ids. *)
Definition numLess (l r : res) (m : vmap) : option bool :=
  do i <- r_id l; do j <- r_id r; do a <- m i; do b <- m j; Some (val_less a b).

(** include/trident/kb/dictmgmt.h 213-244: numbers stored in ids. *)
Definition INTEGER : Z := 2 ^ 62.
Definition FLOAT : Z := 2 ^ 63.
Definition num_type (i : Z) : Z := (i / 2 ^ 62) mod 4 * 2 ^ 62.
Definition high_float (i : Z) : Q := w_fdec w (i / 2 ^ 32 mod 2 ^ 32).
Definition cmp_q (a b : Q) : Z := if qlt a b then -1 else if qlt b a then 1 else 0.
(** dictmgmt.h 246-288, compare. *)
Definition dm_compare (t1 n1 t2 n2 : Z) : Z :=
  let int1 := n1 mod 2 ^ 62 in let int2 := n2 mod 2 ^ 62 in
  if (t1 =? INTEGER) && (t2 =? INTEGER) then (if int1 <? int2 then -1 else if int2 <? int1 then 1 else 0)
  else if t1 =? INTEGER then cmp_q (inject_Z int1) (high_float n2)
  else if t2 =? INTEGER then cmp_q (high_float n1) (inject_Z int2)
  else cmp_q (high_float n1) (high_float n2).
(** Selection.cpp 404-417: a text as a number of DictMgmt; the float is put into the low half. *)
Definition text_number (s : string) : option (Z * Z) :=
  match getNumType s with
  | NDECIMAL => do q <- getDouble s; Some (FLOAT, w_fenc w q)
  | _ => do v <- getLong s; Some (INTEGER, v mod 2 ^ 64)
  end.

(** *** Predicates *)
Inductive arith := APlus | AMinus | AMul | ADiv.
Inductive expr :=
| EOr (a b : expr) | EAnd (a b : expr) | ENot (a : expr)
| EEqual (a b : expr) | ENotEqual (a b : expr) | ELess (a b : expr) | ELessOrEqual (a b : expr)
| EArith (op : arith) (a b : expr) | ENeg (a : expr)
| ENull | EFalse | EVariable (r : nat) | EConstant (i : Z) | ETempLiteral (v : string) | ETempIRI (v : string)
| EFunctionCall | EStr (a : expr) | EXSD (a : expr) | ELang (a : expr) | ELangMatches (a b : expr) | EContains (a b : expr)
| EDatatype (a : expr) | EBound (r : nat) | ESameTerm (a b : expr) | EIsIRI (a : expr) | EIsBlank (a : expr) | EIsLiteral (a : expr)
| ERegEx | EReplace (a p q f : expr) | EIn (a : expr) (l : list expr) | ENotIn (a : expr) (strings : list string)
| ENotExists (r : nat) (found : list Z) | EAggr (r : nat).

Definition arith_op (op : arith) (a b : Q) : Q :=
  match op with APlus => (a + b)%Q | AMinus => (a - b)%Q | AMul => (a * b)%Q | ADiv => (a / b)%Q end.
(** std::string::replace of the first occurrence. *)
Definition replace_first (s p q : string) : string :=
  match index 0 p s with
  | Some f => substring 0 f s ++ q ++ substring (f + String.length p) (String.length s - (f + String.length p)) s
  | None => s
  end.

(** 275-283, Predicate::check; 689-691: a constant that is not in the dictionary is always true. *)
Definition to_check (ev : expr -> res -> vmap -> option (res * vmap)) (e : expr) (m : vmap) : option (bool * vmap) :=
  match e with
  | ETempLiteral _ => Some (true, m)
  | _ =>
    do (r, m1) <- ev e res0 m;
    do r1 <- ensureBoolean r;
    do b <- r_bool r1;
    Some (b, m1)
  end.
(** 337-346 and 366-374. *)
Definition same_value (l r : res) : option bool :=
  if has_id l && has_id r then do i <- r_id l; do j <- r_id r; Some (i =? j)
  else do l1 <- ensureString l; do r1 <- ensureString r; Some (String.eqb (r_value l1) (r_value r1)).
(** 389-437, Less, and 459-515, LessOrEqual; [le] tells which. *)
Definition compare_res (le : bool) (l r : res) (m : vmap) : option (bool * vmap) :=
  do i <- r_id l; do j <- r_id r;
  let ok c := if le then c <=? 0 else c <? 0 in
  match isnumeric i, isnumeric j with
  | false, false =>
    do (b, l1, r1, m1) <- isNumericComparison l r m;
    if b : bool then do c <- (if le then numLess r1 l1 m1 else numLess l1 r1 m1); Some ((if le then negb c else c), m1)
    else
      do l2 <- (if le then ensureString l1 else Some l1);
      do r2 <- ensureString r1;
      Some ((if le then String.leb (r_value l2) (r_value r2) else String.ltb (r_value l2) (r_value r2)), m1)
  | true, false =>
    do r1 <- ensureString r; do (t2, v2) <- text_number (r_value r1);
    Some (ok (dm_compare (num_type i) i t2 v2), m)
  | false, true =>
    do l1 <- ensureString l; do (t1, v1) <- text_number (r_value l1);
    Some (ok (dm_compare t1 v1 (num_type j) j), m)
  | true, true => Some (ok (dm_compare (num_type i) i (num_type j) j), m)
  end.
(** 856-880, BuiltinDatatype: the type of a result that nothing was put into. *)
Definition type_name (ty : option rtype) : string :=
  match ty with
  | Some TURI => xsd "URI" | Some TDecimal => xsd "decimal" | Some TBoolean => xsd "boolean"
  | _ => xsd "string"
  end.

Section Row.
Variable g : regs.
(** The eval methods.  The result passed in keeps its fields unless they are set. *)
Fixpoint eval (e : expr) (r0 : res) (m : vmap) {struct e} : option (res * vmap) :=
  let check e m :=
    match e with
    | ETempLiteral _ => Some (true, m)
    | _ => do (r, m1) <- eval e res0 m; do r1 <- ensureBoolean r; do b <- r_bool r1; Some (b, m1)
    end in
  match e with
  | EOr a b => do (x, m1) <- check a m;
      if x : bool then Some (setBoolean true r0, m1) else do (y, m2) <- check b m1; Some (setBoolean y r0, m2)
  | EAnd a b => do (x, m1) <- check a m;
      if x : bool then do (y, m2) <- check b m1; Some (setBoolean y r0, m2) else Some (setBoolean false r0, m1)
  | ENot a => do (x, m1) <- check a m; Some (setBoolean (negb x) r0, m1)
  | EEqual a b => do (l, m1) <- eval a res0 m; do (r, m2) <- eval b res0 m1; do x <- same_value l r; Some (setBoolean x r0, m2)
  | ENotEqual a b => do (l, m1) <- eval a res0 m; do (r, m2) <- eval b res0 m1; do x <- same_value l r; Some (setBoolean (negb x) r0, m2)
  | ELess a b => do (l, m1) <- eval a res0 m; do (r, m2) <- eval b res0 m1;
      do (x, m3) <- compare_res false l r m2; Some (setBoolean x r0, m3)
  | ELessOrEqual a b => do (l, m1) <- eval a res0 m; do (r, m2) <- eval b res0 m1;
      do (x, m3) <- compare_res true l r m2; Some (setBoolean x r0, m3)
  | EArith op a b => do (l, m1) <- eval a res0 m; do (r, m2) <- eval b res0 m1;
      do l1 <- ensureString l; do r1 <- ensureString r;
      Some (setLiteral (w_fmt w (arith_op op (atof (r_value l1)) (atof (r_value r1)))) r0, m2)
  | ENeg a => do (l, m1) <- eval a res0 m; do l1 <- ensureString l;
      Some (setLiteral (w_fmt w (- atof (r_value l1))%Q) r0, m1)
  | ENull => Some (setId null32 r0, m)
  | EFalse => Some (setBoolean false r0, m)
  | EVariable x => Some (setId (g x) r0, m)
  | EConstant i => Some (setId i r0, m)
  | ETempLiteral v => Some (setLiteral v r0, m)
  | ETempIRI v => Some (setIRI v r0, m)
  | EFunctionCall => Some (setId null32 r0, m)
  | EStr a => do (r, m1) <- eval a r0 m; do r1 <- ensureString r;
      Some (mkRes (has_id r1) (has_str r1) true (has_bool r1) (r_id r1) (r_value r1) (Some TLiteral) (r_bool r1), m1)
  | EXSD a => do (r, m1) <- eval a r0 m; do r1 <- ensureString r;
      Some (mkRes (has_id r1) (has_str r1) true (has_bool r1) (r_id r1) (r_value r1) (Some TDecimal) (r_bool r1), m1)
  | ELang a => do (i, m1) <- eval a res0 m; do _ <- ensureType i; Some (setLiteral "" r0, m1)
  | ELangMatches a b => do (l, m1) <- eval a res0 m; do l1 <- ensureType l;
      match r_type l1 with
      | Some TCustomLanguage => do (r, m2) <- eval b res0 m1; do r1 <- ensureString r; Some (setBoolean (String.eqb "" (r_value r1)) r0, m2)
      | _ => Some (setBoolean false r0, m1)
      end
  | EContains a b => do (l, m1) <- eval a res0 m; do (r, m2) <- eval b res0 m1;
      do l1 <- ensureString l; do r1 <- ensureString r;
      Some (setBoolean (match index 0 (r_value r1) (r_value l1) with Some _ => true | None => false end) r0, m2)
  | EDatatype a => do (r, m1) <- eval a r0 m; do i <- ensureType res0; Some (setLiteral (type_name (r_type i)) r, m1)
  | EBound x => Some (setBoolean (negb (g x =? null64)) r0, m)
  | ESameTerm a b => do (l, m1) <- eval a res0 m; do (r, m2) <- eval b res0 m1;
      if has_id l && has_id r then do i <- r_id l; do j <- r_id r; Some (setBoolean (i =? j) r0, m2)
      else
        do l1 <- ensureType l; do r1 <- ensureType r;
        do l2 <- ensureString l1; do r2 <- ensureString r1;
        let eqt := match r_type l1, r_type r1 with
                   | Some TURI, Some TURI | Some TLiteral, Some TLiteral | Some TCustomLanguage, Some TCustomLanguage
                   | Some TDecimal, Some TDecimal | Some TBoolean, Some TBoolean => true
                   | _, _ => false end in
        Some (setBoolean (eqt && String.eqb (r_value l2) (r_value r2)) r0, m2)
  | EIsIRI a => do (i, m1) <- eval a res0 m; do i1 <- ensureType i;
      Some (setBoolean (match r_type i1 with Some TURI => true | _ => false end) r0, m1)
  | EIsBlank a => do (i, m1) <- eval a res0 m; do i1 <- ensureType i;
      match r_type i1 with
      | Some TURI => do i2 <- ensureString i1; Some (setBoolean (String.eqb (substring 0 2 (r_value i2)) "_:") r0, m1)
      | _ => Some (setBoolean false r0, m1)
      end
  | EIsLiteral a => do (i, m1) <- eval a res0 m; do i1 <- ensureType i;
      Some (setBoolean (match r_type i1 with Some TURI => false | _ => true end) r0, m1)
  | ERegEx => Some (setBoolean false r0, m)
  | EReplace a p q f =>
      do (r1, m1) <- eval a r0 m; do r2 <- ensureString r1;
      do (r3, m2) <- eval p r2 m1;
      do (r4, m3) <- eval q r3 m2;
      do (r5, m4) <- eval f r4 m3;
      do r6 <- ensureString (mkRes (has_id r5) (has_str r5) true (has_bool r5) (r_id r5)
                 (replace_first (r_value r2) (r_value r3) (r_value r4)) (Some TLiteral) (r_bool r5));
      Some (r6, m4)
  | EIn a l =>
      do (p, m1) <- eval a res0 m;
      (fix loop (l : list expr) (p c : res) (m : vmap) : option (res * vmap) :=
        match l with
        | [] => Some (setBoolean false r0, m)
        | x :: l' =>
          do (c1, m2) <- eval x c m;
          if has_id p && has_id c1 then
            do i <- r_id p; do j <- r_id c1;
            if i =? j then Some (setBoolean true r0, m2) else loop l' p c1 m2
          else
            do p1 <- ensureString p; do c2 <- ensureString c1;
            if String.eqb (r_value p1) (r_value c2) then Some (setBoolean true r0, m2) else loop l' p1 c2 m2
        end) l p res0 m1
  | ENotIn a strings => do (p, m1) <- eval a res0 m; do p1 <- ensureString p;
      Some (setBoolean (negb (existsb (String.eqb (r_value p1)) strings)) r0, m1)
  | ENotExists x found => Some (setBoolean (negb (existsb (Z.eqb (g x)) found)) r0, m)
  | EAggr x => let r := setId (g x) r0 in
      Some (mkRes true false false true (r_id r) (r_value r) (r_type r) (Some true), m)
  end.
Definition check (e : expr) (m : vmap) : option (bool * vmap) := to_check eval e m.
End Row.

(** *** The operator: Selection.cpp 1217-1255, first and next.  The map of values belongs to the runtime. *)
Record sel_st := mkSel { sel_input : oper; sel_map : vmap }.
Fixpoint sel_next (fuel : nat) (e : expr) (s : sel_st) (g : regs) : option (Z * regs * sel_st) :=
  match fuel with
  | O => None
  | S k =>
    do (c, g1, i1) <- o_next (sel_input s) g;
    if c =? 0 then Some (0, g1, mkSel i1 (sel_map s))
    else
      do (b, m1) <- check g1 e (sel_map s);
      if b : bool then Some (c, g1, mkSel i1 m1) else sel_next k e (mkSel i1 m1) g1
  end.
Definition sel_first (fuel : nat) (e : expr) (s : sel_st) (g : regs) : option (Z * regs * sel_st) :=
  do (c, g1, i1) <- o_first (sel_input s) g;
  if c =? 0 then Some (0, g1, mkSel i1 (sel_map s))
  else
    do (b, m1) <- check g1 e (sel_map s);
    if b : bool then Some (c, g1, mkSel i1 m1) else sel_next fuel e (mkSel i1 m1) g1.
Definition selection (fuel : nat) (e : expr) (input : oper) : oper :=
  obj (sel_first fuel e) (sel_next fuel e) (mkSel input (fun _ => None)).

(** *** From the filter of the query to the predicate *)
(** rdf3x/include/cts/parser/SPARQLParser.hpp, Element: a literal, without type, with a language or with a type. *)
Inductive lit := LPlain (v : string) | LLang (v lang : string) | LTyped (v dt : string).
Definition lit_value (l : lit) : string := match l with LPlain v | LLang v _ | LTyped v _ => v end.
(** TridentLayer.cpp 37-84, lookup: the text of an IRI, or of a literal with the name of its type ("" if none). *)
Definition lookup_iri (v : string) : option Z := w_number w ("<" ++ v ++ ">").
Definition lookup_lit (v tp : string) : option Z :=
  match w_number w v with
  | Some i => Some i
  | None => w_number w (quote ++ v ++ quote ++ (if String.eqb tp "" then "" else "^^<" ++ tp ++ ">"))
  end.
(** rdf3x/src/cts/SemanticAnalysis.cpp 69-114, encode, for a literal. *)
Definition encode_lit (l : lit) : option Z :=
  match l with
  | LPlain v => lookup_lit v ""
  | LLang v lang => do _ <- lookup_lit lang ""; lookup_lit v ""
  | LTyped v dt =>
    if String.eqb dt (xsd "string") then lookup_lit v ""
    else if String.eqb dt (xsd "integer") || String.eqb dt (xsd "date") || String.eqb dt (xsd "decimal")
         || String.eqb dt (xsd "double") || String.eqb dt (xsd "boolean") then lookup_lit v dt
    else do _ <- lookup_iri dt; lookup_lit v ""
  end.
(** QueryGraph.hpp 75: the id of a filter has 32 bits (the constant ~0u means "not in the dictionary"); CodeGen.cpp 511-525. *)
Definition build_lit (l : lit) : expr :=
  let id := match encode_lit l with Some i => i mod 2 ^ 32 | None => null32 end in
  if id =? null32 then ETempLiteral (lit_value l) else EConstant id.
Definition build_iri (v : string) : expr :=
  let id := match lookup_iri v with Some i => i mod 2 ^ 32 | None => null32 end in
  if id =? null32 then ETempIRI v else EConstant id.

(** The filters of a query (SPARQLParser.hpp, Filter; variables are registers). *)
Inductive filt :=
| FOr (a b : filt) | FAnd (a b : filt) | FNot (a : filt)
| FEqual (a b : filt) | FNotEqual (a b : filt) | FLess (a b : filt) | FLessOrEqual (a b : filt) | FGreater (a b : filt) | FGreaterOrEqual (a b : filt)
| FArith (op : arith) (a b : filt) | FNeg (a : filt)
| FLit (l : lit) | FIri (v : string) | FVar (x : nat)
| FStr (a : filt) | FLang (a : filt) | FLangMatches (a b : filt) | FContains (a b : filt) | FDatatype (a : filt) | FBound (x : nat) | FSameTerm (a b : filt)
| FIsIRI (a : filt) | FIsBlank (a : filt) | FIsLiteral (a : filt) | FRegex (a b : filt) | FReplace (a p q f : filt) | FIn (a : filt) (l : list filt)
| FNotIn (a : filt) (values : list string) | FNotExists (x : nat) (found : list Z).
(** rdf3x/src/cts/CodeGen.cpp 468-615, buildSelection. *)
Fixpoint build (f : filt) : expr :=
  match f with
  | FOr a b => EOr (build a) (build b)
  | FAnd a b => EAnd (build a) (build b)
  | FNot a => ENot (build a)
  | FEqual a b => EEqual (build a) (build b)
  | FNotEqual a b => ENotEqual (build a) (build b)
  | FLess a b => ELess (build a) (build b)
  | FLessOrEqual a b => ELessOrEqual (build a) (build b)
  | FGreater a b => ELess (build b) (build a)
  | FGreaterOrEqual a b => ELessOrEqual (build b) (build a)
  | FArith op a b => EArith op (build a) (build b)
  | FNeg a => ENeg (build a)
  | FLit l => build_lit l
  | FIri v => build_iri v
  | FVar x => EVariable x
  | FStr a => EStr (build a)
  | FLang a => ELang (build a)
  | FLangMatches a b => ELangMatches (build a) (build b)
  | FContains a b => EContains (build a) (build b)
  | FDatatype a => EDatatype (build a)
  | FBound x => EBound x
  | FSameTerm a b => ESameTerm (build a) (build b)
  | FIsIRI a => EIsIRI (build a)
  | FIsBlank a => EIsBlank (build a)
  | FIsLiteral a => EIsLiteral (build a)
  | FRegex _ _ => ERegEx
  | FReplace a p q f => EReplace (build a) (build p) (build q) (build f)
  | FIn a l => EIn (build a) (map build l)
  | FNotIn a values => ENotIn (build a) values
  | FNotExists x found => ENotExists x found
  end.
End Eval.
