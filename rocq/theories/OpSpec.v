(** What a user of a query operator relies on.

    [V] are the registers that hold the row for the consumer, [W] all registers the operator may
    write; the consumer must leave the registers in [W] as they are until it asks for the next row. *)
From Coq Require Export Permutation Sorted.
From Verif Require Export OpModel.
Local Open Scope Z_scope.

Definition agree (X : list nat) (a b : regs) : Prop := forall x, In x X -> a x = b x.
Definition outside (W : list nat) (a b : regs) : Prop := forall x, ~ In x W -> a x = b x.
Definition disjoint (X Y : list nat) : Prop := forall x, In x X -> ~ In x Y.

(** The call [call], made when the registers satisfy [pre], and the calls of next after it
    return the rows [l], each with the given number of occurrences, then 0.
    All operators met on the way satisfy [I]. *)
Fixpoint Rows (I : oper -> Prop) (V W : list nat) (call : regs -> option (Z * regs * oper))
  (pre : regs -> Prop) (l : list (regs * Z)) : Prop :=
  forall g, pre g ->
  match l with
  | [] => exists g' o', call g = Some (0, g', o') /\ outside W g g' /\ I o'
  | (v, c) :: l' =>
      0 < c /\ exists g' o', call g = Some (c, g', o') /\ agree V g' v /\ outside W g g' /\ I o' /\
      Rows I V W (o_next o') (fun h => agree W h g') l'
  end.

Definition any : oper -> Prop := fun _ => True.

(** A run of the operator: first and then next until the end. *)
Definition Answers (V W : list nat) (l : list (regs * Z)) (o : oper) : Prop :=
  Rows any V W (o_first o) (fun _ => True) l.

(** The operator can be run again at any time, also before it reached its end, and each run
    returns the rows [f v], where [v] are the registers [D] at the time of the call of first. *)
Definition Restarts (V W D : list nat) (f : regs -> list (regs * Z)) (o : oper) : Prop :=
  exists I : oper -> Prop, I o /\
  forall o', I o' -> forall v, Rows I V W (o_first o') (fun g => agree D g v) (f v).

(** The row that has the values of [a] in the registers [X] and those of [b] elsewhere. *)
Definition beside (X : list nat) (a b : regs) : regs :=
  fun x => if in_dec Nat.eq_dec x X then a x else b x.
(** All pairs of a row of [L] and a row that [f] gives for it. *)
Definition pairs (X : list nat) (L : list (regs * Z)) (f : regs -> list (regs * Z)) : list (regs * Z) :=
  flat_map (fun a => map (fun b => (beside X (fst a) (fst b), snd a * snd b)) (f (fst a))) L.

(** How often the answer [l] has the values [t] in the registers [V]. *)
Definition values_dec : forall a b : list Z, {a = b} + {a <> b} := list_eq_dec Z.eq_dec.
Definition occurs (V : list nat) (l : list (regs * Z)) (t : list Z) : Z :=
  fold_right (fun a n => (if values_dec (map (fst a) V) t then snd a else 0) + n) 0 l.

(** The answer as a list of rows, repeated rows repeated. *)
Definition expand (V : list nat) (l : list (regs * Z)) : list (list Z) :=
  flat_map (fun a => repeat (map (fst a) V) (Z.to_nat (snd a))) l.

(** The answer as a table of values and numbers of occurrences. *)
Definition table (V : list nat) (l : list (regs * Z)) : list (list Z * Z) :=
  map (fun a => (map (fst a) V, snd a)) l.

(** What std::sort requires of a comparison, and what it then gives. *)
Definition strict_weak {A} (less : A -> A -> bool) (l : list A) : Prop :=
  (forall a, In a l -> less a a = false) /\
  (forall a b c, In a l -> In b l -> In c l -> less a b = true -> less b c = true -> less a c = true) /\
  (forall a b c, In a l -> In b l -> In c l -> less a b = false -> less b c = false -> less a c = false).
Definition sorts {A} (sortf : (A -> A -> bool) -> list A -> list A) : Prop :=
  forall less l, strict_weak less l ->
  Permutation (sortf less l) l /\ StronglySorted (fun a b => less b a = false) (sortf less l).

(** The order of texts: byte by byte, a text before its extensions. *)
Fixpoint lex (a b : list Z) : bool :=
  match a, b with
  | _, [] => false
  | [], _ => true
  | x :: a', y :: b' => if x <? y then true else if y <? x then false else lex a' b'
  end.
(** The order of values: unbound, then integers by value, then texts. *)
Definition sort_key (lookup : Z -> option (list Z)) (v : Z) : list Z :=
  if v =? null64 then []
  else if 2 ^ 62 <=? v then [0; v - 2 ^ 62]
  else match lookup v with Some t => 1 :: t | None => [] end.
(** The row [a] must come before [b]: at the first variable where they differ it is smaller, or
    larger if the variable is descending. *)
Fixpoint precedes (lookup : Z -> option (list Z)) (order : list (nat * bool)) (a b : regs) : Prop :=
  match order with
  | [] => False
  | (r, desc) :: order' =>
      let x := sort_key lookup (a r) in let y := sort_key lookup (b r) in
      (if desc : bool then lex y x = true else lex x y = true) \/ (x = y /\ precedes lookup order' a b)
  end.
(** A variable that is bound only to integers, or only to terms with a text of their own. *)
Definition uniform (lookup : Z -> option (list Z)) (r : nat) (l : list (regs * Z)) : Prop :=
  (forall a, In a l -> fst a r = null64 \/ 2 ^ 62 <= fst a r < 2 ^ 63) \/
  (forall a, In a l -> fst a r = null64 \/
     (fst a r < 2 ^ 62 /\ (exists t, lookup (fst a r) = Some t) /\
      forall b, In b l -> lookup (fst a r) = lookup (fst b r) -> fst a r = fst b r)).

(** Rows with the same key are next to each other. *)
Definition adjacent {A} (key : A -> list Z) (l : list A) : Prop :=
  forall l1 a l2 b l3, l = l1 ++ a :: l2 ++ b :: l3 -> key a = key b -> Forall (fun x => key x = key a) l2.
(** The registers of the variables [vars], where [keys] lists the variables and [rs] their registers. *)
Definition registers (keys rs vars grp : list nat) : Prop :=
  Forall2 (fun v r => exists i, nth_error keys i = Some v /\ nth_error rs i = Some r) vars grp.

(** The row of a union for the row [v] of a part: the register [to] of a pair [(from, to)] has
    the value of [from], a register of [init] is unbound, the others are those of the part. *)
Definition union_row (m : list (nat * nat)) (init : list nat) (v : regs) : regs := fun x =>
  match find (fun ft => Nat.eqb (snd ft) x) m with
  | Some ft => v (fst ft)
  | None => if in_dec Nat.eq_dec x init then null32 else v x
  end.

(** The pairs with the same value in [x] and [y], where [X] are the registers of the left rows. *)
Definition joined (X : list nat) (x y : nat) (L R : list (regs * Z)) : list (regs * Z) :=
  filter (fun p : regs * Z => fst p x =? fst p y) (pairs X L (fun _ => R)).
(** The rows of [R] without partner in [L], the registers [X] of which are unbound. *)
Definition unmatched (X : list nat) (x y : nat) (L R : list (regs * Z)) : list (regs * Z) :=
  map (fun b : regs * Z => (beside X (fun _ => null32) (fst b), snd b))
    (filter (fun b : regs * Z => forallb (fun a : regs * Z => negb (fst a x =? fst b y)) L) R).
(** The rows of [L], whose registers are [X], without partner in [R]; all other registers are unbound. *)
Definition alone (X : list nat) (x y : nat) (L R : list (regs * Z)) : list (regs * Z) :=
  map (fun a : regs * Z => (beside X (fst a) (fun _ => null32), snd a))
    (filter (fun a : regs * Z => forallb (fun b : regs * Z => negb (fst a x =? fst b y)) R) L).
(** In the order of the register [x], and in addition without repeated values. *)
Definition ascending (x : nat) (l : list (regs * Z)) : Prop := StronglySorted (fun a b : regs * Z => fst a x <= fst b x) l.
Definition rising (x : nat) (l : list (regs * Z)) : Prop := StronglySorted (fun a b : regs * Z => fst a x < fst b x) l.
