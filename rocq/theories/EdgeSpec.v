(** Specification of the edge interface, independent of the model. *)
From Coq Require Import Sorted.
From Verif Require Export QuerySpec ItrSpec EdgeModel.
Local Open Scope Z_scope.

(** The answers to a pattern: constants must be equal, and a variable that occurs twice (the same
    negative number) stands for the same value. *)
Definition answer (pat t : triple) : Prop :=
  matches pat t /\
  forall i j, (i < 3)%nat -> (j < 3)%nat -> field pat i < 0 -> field pat i = field pat j -> field t i = field t j.

(** The order a function promises with its name (S = 0, R = 1, D = 2). *)
Definition positions (k : kind) : list nat :=
  match k with
  | SRD => [0; 1; 2] | SDR => [0; 2; 1] | RSD => [1; 0; 2]
  | RDS => [1; 2; 0] | DSR => [2; 0; 1] | DRS => [2; 1; 0]
  end%nat.
Fixpoint lex_lt (ord : list nat) (t1 t2 : triple) : Prop :=
  match ord with
  | [] => False
  | i :: ord' => field t1 i < field t2 i \/ (field t1 i = field t2 i /\ lex_lt ord' t1 t2)
  end.

(** What is assumed of the query engine: getIterator over index idx delivers the stored triples
    that match, each once, in the order of the index, when the constants of the pattern come first
    in the index and its variables are written -1. *)
Definition constants_first (ord : list nat) (pat : triple) : Prop :=
  let '(a, b, c) := reorder ord pat in (b < 0 -> c < 0) /\ (a < 0 -> b < 0).
Definition serves (getIt : Z -> Z -> Z -> Z -> pitr) (db : list triple) : Prop :=
  forall idx ord s p o, perm_positions idx = Some ord -> -1 <= s -> -1 <= p -> -1 <= o ->
    constants_first ord (s, p, o) ->
    exists l, Yields false l (getIt idx s p o) /\ StronglySorted elt l /\
      forall x, In x l <-> exists t, In t db /\ matches (s, p, o) t /\ x = reorder ord t.

(** No variable occurs twice. *)
Definition distinct_vars (s r d : Z) : Prop :=
  (s < 0 -> s <> r /\ s <> d) /\ (r < 0 -> r <> d).

(** A client that reads all edges. *)
Fixpoint e_drain (fuel : nat) (e : edge) : option (list triple) :=
  match fuel with
  | O => None
  | S f =>
    match e_hasNext e with
    | Some (true, e1) =>
      match e_next e1 with
      | Some e2 =>
        match e_triple e2, e_drain f e2 with Some t, Some l => Some (t :: l) | _, _ => None end
      | None => None
      end
    | Some (false, _) => Some []
    | None => None
    end
  end.

(** The groups of a list of triples by the values at some positions: every combination of values
    once, in order, with the number of triples that have it. *)
Definition group_key (ps : list nat) (t : triple) : list Z := map (field t) ps.
Definition is_grouping (ps : list nat) (ans : list triple) (g : list (list Z * Z)) : Prop :=
  NoDup (map fst g) /\
  (forall k, In k (map fst g) <-> exists t, In t ans /\ group_key ps t = k) /\
  (forall k n, In (k, n) g -> n = Z.of_nat (length (filter (fun t => if list_eq_dec Z.eq_dec (group_key ps t) k then true else false) ans))).
Definition read1 (x : option Z * option Z * Z) : option (list Z * Z) :=
  match x with (Some a, _, n) => Some ([a], n) | _ => None end.
Definition read2 (x : option Z * option Z * Z) : option (list Z * Z) :=
  match x with (Some a, Some b, n) => Some ([a; b], n) | _ => None end.

(** A reference engine over a list of triples, for examples: like Querier::getIterator, a
    negative first value scans the whole index, and any other value than -1 is a constant. *)
Definition ref_ok (c v : Z) : bool := (c =? -1) || (c =? v).
Fixpoint ins (x : elem) (l : list elem) : list elem :=
  match l with
  | [] => [x]
  | y :: t => if rm_cmp false (list_itr x []) (list_itr y []) <? 0 then x :: l else y :: ins x t
  end.
Definition ref_list (db : list triple) (idx s p o : Z) : list elem :=
  match perm_positions idx with
  | Some ord =>
    let '(a, b, c) := reorder ord (s, p, o) in
    fold_right ins []
      (filter (fun x => let '(k, v, w) := x in (a <? 0) || ((a =? k) && ref_ok b v && ref_ok c w))
        (map (reorder ord) db))
  | None => []
  end.
Definition ref_get (db : list triple) (idx s p o : Z) : pitr :=
  list_itr (0, 0, 0) (ref_list db idx s p o).
