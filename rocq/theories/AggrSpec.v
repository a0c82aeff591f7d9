(** Specification of aggregates, independent of the model's functions. *)
From Verif Require Export AggrModel.
Local Open Scope Z_scope.

(** The solutions of a group for a variable: a row with count n stands for n equal solutions. *)
Definition solutions (v : nat) (g : list row) : list value := concat (map (fun r => repeat (r_vals r v) (Z.to_nat (r_count r))) g).
Definition num (x : value) : option Q := match x with VInt z => Some (inject_Z z) | VDec q => Some q | VSym _ => None end.
Definition numeric (l : list value) : Prop := forall x, In x l -> exists q, num x = Some q.
Definition all_int (l : list value) : Prop := forall x, In x l -> exists z, x = VInt z.
Fixpoint total (l : list value) : Q :=
  match l with [] => 0%Q | x :: r => ((match num x with Some q => q | None => 0 end) + total r)%Q end.
Definition toQ (r : result) : Q := match r with RInt z => inject_Z z | RDec q => q end.

(** What a result must be. *)
Definition count_ok (l : list value) (r : result) : Prop := r = RInt (Z.of_nat (length l)).
Definition sum_ok (l : list value) (r : result) : Prop := (toQ r == total l)%Q.
Definition avg_ok (l : list value) (r : result) : Prop := (toQ r * inject_Z (Z.of_nat (length l)) == total l)%Q.
(** The average of integers, rounded towards zero. *)
Definition avg_truncated (l : list value) (r : result) : Prop :=
  exists z s, r = RInt z /\ (total l == inject_Z s)%Q /\ z = Z.quot s (Z.of_nat (length l)).
Definition max_ok (l : list value) (r : result) : Prop :=
  (exists x q, In x l /\ num x = Some q /\ (q == toQ r)%Q) /\ forall x q, In x l -> num x = Some q -> (q <= toQ r)%Q.
Definition min_ok (l : list value) (r : result) : Prop :=
  (exists x q, In x l /\ num x = Some q /\ (q == toQ r)%Q) /\ forall x q, In x l -> num x = Some q -> (toQ r <= q)%Q.

(** The groups of a sequence of rows: maximal runs of equal keys. *)
Inductive runs : list row -> list (list Z * list row) -> Prop :=
| runs_nil : runs [] []
| runs_cons k g rest gs : g <> [] -> (forall r, In r g -> r_keys r = k) -> (forall r t, rest = r :: t -> r_keys r <> k) ->
    runs rest gs -> runs (g ++ rest) ((k, g) :: gs).

(** A handler as prepare leaves it: calls reset, every input is fed, no result is an input, each
    result has its own variable, no function is distinct. *)
Record ready (vars : list nat) (h : handler) : Prop := {
  rd_reset : forall c, In c (h_calls h) -> call_reset c = c;
  rd_in : forall c, In c (h_calls h) -> In (f_in c) vars;
  rd_io : forall c, In c (h_calls h) -> ~ In (f_out c) vars;
  rd_out : NoDup (map f_out (h_calls h));
  rd_known : forall c, In c (h_calls h) -> f_id c <> OTHER;
  rd_distinct : forall f, h_distinct h f = false
}.

(** What is delivered for a group: COUNT always; the others for numbers; SUM and AVG for rows with
    count 1, and AVG of integers is truncated. *)
Definition agg_ok (c : call) (g : list row) (res : result) : Prop :=
  let l := solutions (f_in c) g in
  match f_id c with
  | COUNT => count_ok l res
  | SUM => numeric l -> (forall r, In r g -> r_count r = 1) -> sum_ok l res
  | AVG => numeric l -> (forall r, In r g -> r_count r = 1) -> (all_int l /\ avg_truncated l res) \/ (~ all_int l /\ avg_ok l res)
  | MAX => numeric l -> max_ok l res
  | MIN => numeric l -> min_ok l res
  | OTHER => False
  end.
