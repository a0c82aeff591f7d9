(** What a user of the tree expects. *)
From Coq Require Import Sorting.Sorted.
From Verif Require Export TreeModel.
Local Open Scope Z_scope.

(** A history of insertions. *)
Inductive op (P : Type) := Put (k : Z) (x : P) | Append (k : Z) (x : P).
Arguments Put {P} k x.
Arguments Append {P} k x.
Definition op_key {P} (o : op P) : Z := match o with Put k _ => k | Append k _ => k end.
Definition op_val {P} (o : op P) : P := match o with Put _ x => x | Append _ x => x end.

(** The last value given for a key. *)
Fixpoint last_value {P} (k : Z) (h : list (op P)) : option P :=
  match h with
  | [] => None
  | o :: r => match last_value k r with Some x => Some x | None => if op_key o =? k then Some (op_val o) else None end
  end.

(** Keys are below 2^62, and append is only used for keys above all earlier ones. *)
Fixpoint allowed {P} (before : list Z) (h : list (op P)) : Prop :=
  match h with
  | [] => True
  | o :: r =>
    0 <= op_key o < 2 ^ 62 /\
    (match o with Put _ _ => True | Append k _ => forall j, In j before -> j < k end) /\
    allowed (op_key o :: before) r
  end.

(** Running a history on a tree. *)
Definition step {P V} (store : P -> V) (update : V -> P -> V) (mx : nat) (t : tree V) (o : op P) : option (tree V) :=
  match o with Put k x => put store update mx t k x | Append k x => append store update mx t k x end.
Fixpoint build {P V} (store : P -> V) (update : V -> P -> V) (mx : nat) (t : tree V) (h : list (op P)) : option (tree V) :=
  match h with
  | [] => Some t
  | o :: r => do t <- step store update mx t o; build store update mx t r
  end.

(** A tree of numbers: the values are 64-bit integers. *)
Definition build_num (mx : nat) (h : list (op Z)) : option (tree Z) := build (fun x => x) (fun _ x => x) mx tr_new h.
(** A tree of term coordinates. *)
Definition build_tc (mx : nat) (h : list (op tc)) : option (tree (list (nat * coord))) :=
  build (addCoordinates []) addCoordinates mx tr_new h.

(** Everything an iterator returns, in at most [fuel] steps. *)
Fixpoint walk {V} (fuel : nat) (c : cursor V) : option (list (Z * V)) :=
  match fuel with
  | O => None
  | S f =>
    do (b, c) <- itr_hasNext c;
    if b : bool then do (k, v, c) <- itr_next c; do r <- walk f c; Some ((k, v) :: r)
    else Some []
  end.

Definition increasing (l : list Z) : Prop := StronglySorted Z.lt l.

(** ** Term coordinates. *)
(** Storing [v] over [u] forgets nothing that has to be forgotten: a permutation that is in
    [u] and not in [v] lies before all permutations of [v]. *)
Definition replaces (u v : tc) : Prop :=
  forall j i, (j < 6)%nat -> u j <> None -> v j = None -> v i <> None -> (j < i)%nat.
(** Every value given for a key replaces the one given for it before. *)
Fixpoint replacing (h : list (op tc)) : Prop :=
  match h with
  | [] => True
  | o :: r =>
    (forall o' r1 r2, r = r1 ++ o' :: r2 -> op_key o' = op_key o -> last_value (op_key o) r1 = None ->
       replaces (op_val o) (op_val o')) /\ replacing r
  end.
