(** Specification of iterators and of update histories, independent of the model of the
    iterator classes. *)
From Coq Require Import Sorted Permutation.
From Verif Require Export ItrModel.
Local Open Scope Z_scope.

(** Lexicographic order on (key, value1, value2). *)
Definition elt (x y : elem) : Prop :=
  let '(k, a, b) := x in
  let '(k', a', b') := y in
  k < k' \/ (k = k' /\ (a < a' \/ (a = a' /\ b < b'))).
Definition ele (x y : elem) : Prop := elt x y \/ x = y.

(** What a client sees who drains an iterator: while hasNext() { next(); read }. *)
Fixpoint drain (fuel : nat) (o : pitr) : option (list elem) :=
  match fuel with
  | O => None
  | S f =>
    match hasNext o with
    | Some (true, o1) =>
      match next o1 with
      | Some o2 => match drain f o2 with Some l => Some (cur o2 :: l) | None => None end
      | None => None
      end
    | Some (false, _) => Some []
    | None => None
    end
  end.

(** [polls o o']: o' is o after any number of calls to hasNext. *)
Inductive polls (o : pitr) : pitr -> Prop :=
| polls_refl : polls o o
| polls_step o1 b o2 : polls o o1 -> hasNext o1 = Some (b, o2) -> polls o o2.

Definition nonempty {A} (l : list A) : bool := match l with [] => false | _ => true end.

(** [Yields cnt l o]: from now on the iterator o delivers exactly the elements of l, in
    that order: hasNext can be called any number of times at each step and answers whether
    an element is left; next then moves to the next element of l.  With [cnt], getCount can
    be called after each next and does not disturb the iteration. *)
Fixpoint Yields (cnt : bool) (l : list elem) (o : pitr) : Prop :=
  forall o', polls o o' ->
  exists o1, hasNext o' = Some (nonempty l, o1) /\
    match l with
    | [] => True
    | x :: t => exists o2, next o1 = Some o2 /\ cur o2 = x /\
        (cnt = true -> exists c, getCount o2 = Some (c, o2)) /\ Yields cnt t o2
    end.

(** The iterator was just asked hasNext: if l is not empty, next may be called. *)
Definition Ready (cnt : bool) (l : list elem) (o : pitr) : Prop :=
  Yields cnt l o /\
  match l with
  | [] => True
  | x :: t => exists o2, next o = Some o2 /\ cur o2 = x /\
      (cnt = true -> exists c, getCount o2 = Some (c, o2)) /\ Yields cnt t o2
  end.

(** std::sort (C++ [alg.sort]) with strict weak order [gt]: the result is a permutation
    of the input in which no element is [gt] than an earlier one.  Nothing is assumed about
    equivalent elements. *)
Definition std_sort (gt : pitr -> pitr -> bool) (f : list pitr -> list pitr) : Prop :=
  forall l, Permutation (f l) l /\ StronglySorted (fun a b => gt b a = false) (f l).

(** History of updates: (true, d) deletes the triples of d, (false, d) adds them. *)
Definition step_set (S : elem -> Prop) (u : bool * list elem) : elem -> Prop :=
  fun x => if fst u then S x /\ ~ In x (snd u) else S x \/ In x (snd u).
Definition replay (S : elem -> Prop) (h : list (bool * list elem)) : elem -> Prop :=
  fold_left step_set h S.

(** What the updater guarantees about each update when it is recorded: additions
    contain no triple that is present, deletions only triples that are present. *)
Fixpoint valid_history (S : elem -> Prop) (h : list (bool * list elem)) : Prop :=
  match h with
  | [] => True
  | u :: rest =>
    (forall x, In x (snd u) -> if fst u then S x else ~ S x) /\
    valid_history (step_set S u) rest
  end.

(** Weaker: additions contain no triple that is present, and at a deletion that is not empty
    some triple is present.  Deletions may contain triples that are not present. *)
Fixpoint readable_history (S : elem -> Prop) (h : list (bool * list elem)) : Prop :=
  match h with
  | [] => True
  | u :: rest =>
    (if fst u then snd u = [] \/ exists y, S y else forall x, In x (snd u) -> ~ S x) /\
    readable_history (step_set S u) rest
  end.
Lemma valid_readable h : forall S, valid_history S h -> readable_history S h.
Proof.
  induction h as [|u h IH]; intros S; cbn; auto. intros [H1 H2]. split; [|auto].
  destruct (fst u); auto. destruct (snd u) as [|x l]; auto. right. exists x. apply H1. now left.
Qed.

(** Set difference on lists, keeping order. *)
Lemma elem_dec (x y : elem) : {x = y} + {x <> y}.
Proof. repeat decide equality. Defined.
Definition minus (M D : list elem) : list elem :=
  filter (fun x => if in_dec elem_dec x D then false else true) M.

(** A reference iterator over a list, used in examples: [c] is the element it stands on. *)
CoFixpoint list_itr (c : elem) (l : list elem) : pitr := {|
  hasNext := Some (nonempty l, list_itr c l);
  next := match l with [] => None | x :: t => Some (list_itr x t) end;
  value1 := snd (fst c);
  value2 := snd c;
  key := fst (fst c);
  getCount := Some (1, list_itr c l);
  moveto := fun c1 c2 =>
    Some (list_itr c (filter (fun x => (c1 <? snd (fst x)) ||
                                       ((c1 =? snd (fst x)) && (c2 <=? snd x))) (c :: l)));
  ignoreSecondColumn := None;
  mark := None;
  reset := fun _ => None;
  setKey := fun k => list_itr (k, snd (fst c), snd c) l |}.

(** Lists of pairs: order, and the pairs a table or array must deliver for the constraints
    c1 and c2 (-1 = no constraint). *)
Definition ple (x y : Z * Z) : Prop := fst x < fst y \/ (fst x = fst y /\ snd x <= snd y).
Definition pair_matches (c1 c2 : Z) (e : Z * Z) : bool :=
  ((c1 =? -1) || (fst e =? c1)) && ((c2 =? -1) || (snd e =? c2)).
Definition with_key (k : Z) (l : list (Z * Z)) : list elem :=
  map (fun e => (k, fst e, snd e)) l.
Definition pair_lt (e : Z * Z) (c1 c2 : Z) : bool :=
  (fst e <? c1) || ((fst e =? c1) && (snd e <? c2)).
