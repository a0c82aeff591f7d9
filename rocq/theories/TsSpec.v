(** What a scan of an index promises: hints only skip rows that nobody wants. *)
From Verif Require Export ItrSpec TableSpec DomSpec.
From Verif Require Import TsModel DomProps.
Local Open Scope Z_scope.

Definition c1 (e : elem) : Z := fst (fst e).
Definition c2 (e : elem) : Z := snd (fst e).
Definition c3 (e : elem) : Z := snd e.
Definition int64_row (e : elem) : Prop := int64 (c1 e) /\ int64 (c2 e) /\ int64 (c3 e).

(** An iterator that moves forward.  In a state (c, l) it has l left to deliver, and stands on c if
    the last call was next.
    - hasNext tells whether l is empty, and next then delivers the first row of l;
    - after next, moveto(a, b) with a beyond the value of the current row, and at most [top], skips
      exactly the rows with the same key that are before (a, b). *)
Definition seek_sim (top : Z) (S : option elem -> list elem -> pitr -> Prop) : Prop :=
  forall c l o, S c l o ->
  (exists o1, hasNext o = Some (nonempty l, o1) /\ S None l o1 /\
     match l with
     | [] => True
     | x :: t => exists o2, next o1 = Some o2 /\ cur o2 = x /\ S (Some x) t o2
     end) /\
  (forall x a b, c = Some x -> int64 a -> int64 b -> c2 x < a <= top ->
     exists o1, moveto o a b = Some o1 /\
       S None (filter (fun e => negb ((c1 e =? c1 x) && pair_lt (c2 e, c3 e) a b)) l) o1).
Definition Seek (top : Z) (l : list elem) (o : pitr) : Prop := exists S, seek_sim top S /\ S None l o.

(** The values that a hint does not rule out for a column: nothing below a register that holds a
    value, nothing outside the domain. *)
Definition allows (c : hcol) (v : Z) : Prop :=
  (forall x, h_bound c = Some x -> x = umax \/ x <= v) /\
  (forall x, In x (h_merge c) -> x = umax \/ x <= v) /\
  (forall d, h_dom c = Some d -> couldQualify d v = true).
Definition wanted (h : hint) (e : elem) : Prop :=
  allows (fst (fst h)) (c1 e) /\ allows (snd (fst h)) (c2 e) /\ allows (snd h) (c3 e).
(** Registers hold unsigned 64-bit numbers; domains are those that operators build. *)
Definition col_ok (c : hcol) : Prop :=
  (forall x, h_bound c = Some x -> uint64 x) /\ (forall x, In x (h_merge c) -> uint64 x) /\
  (forall d, h_dom c = Some d -> pot d).
Definition hint_ok (h : hint) : Prop := col_ok (fst (fst h)) /\ col_ok (snd (fst h)) /\ col_ok (snd h).

(** The rows that agree with the bound columns. *)
Definition agrees (b1 b2 b3 : bool) (f e : elem) : bool :=
  (negb b1 || (c1 e =? c1 f)) && (negb b2 || (c2 e =? c2 f)) && (negb b3 || (c3 e =? c3 f)).
(** The order of a list is kept. *)
Inductive sublist {A} : list A -> list A -> Prop :=
| sub_nil : sublist [] []
| sub_skip x l l' : sublist l l' -> sublist l (x :: l')
| sub_take x l l' : sublist l l' -> sublist (x :: l) (x :: l').
