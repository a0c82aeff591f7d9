(** Specification of recorded updates, independent of how they are computed. *)
From Coq Require Import Sorted Permutation.
From Verif Require Export UpdModel ItrSpec.
Local Open Scope Z_scope.

(** What the database contains after a request: an addition makes the triples of the
    request present, a deletion makes them absent. *)
Definition is_delete (ty : utype) : bool :=
  match ty with ADDITION_df => false | DELETE_df => true end.
Definition requests := list (utype * list elem).
Definition as_history (r : requests) : list (bool * list elem) :=
  map (fun u => (is_delete (fst u), snd u)) r.

(** The triples of a request that change the database with content S. *)
Definition effective (ty : utype) (S : elem -> Prop) (x : elem) : Prop :=
  match ty with ADDITION_df => ~ S x | DELETE_df => S x end.

(** std::sort (C++ [alg.sort]) with the strict weak order [lt]: a permutation in which no
    element is less than an earlier one.  Nothing is assumed about equivalent elements. *)
Definition sorts_by {A} (lt : A -> A -> bool) (f : list A -> list A) : Prop :=
  forall l, Permutation (f l) l /\ StronglySorted (fun a b => lt b a = false) (f l).
Definition good_sorts (so : sorts) : Prop :=
  sorts_by sortByS (by_s so) /\ sorts_by sortByP (by_p so) /\ sorts_by sortByO (by_o so) /\
  sorts_by sorter (by_num so).

(** The texts of a list of triples, per position and together. *)
Definition subjects (l : list ttriple) : list text := map tx_s l.
Definition predicates (l : list ttriple) : list text := map tx_p l.
Definition objects (l : list ttriple) : list text := map tx_o l.
Definition is_term (l : list ttriple) (t : text) : Prop :=
  In t (subjects l) \/ In t (predicates l) \/ In t (objects l).

(** A dictionary: distinct texts have distinct identifiers, all below the next one. *)
Definition dict_ok (dict : text -> option Z) (next : Z) : Prop :=
  0 <= next /\
  (forall t i, dict t = Some i -> 0 <= i < next) /\
  (forall t t' i, dict t = Some i -> dict t' = Some i -> t = t').

(** The identifiers used for the texts [T] of an update: those of the dictionary for known
    texts, fresh ones for the others, never the same one for two texts. *)
Definition coding (dict : text -> option Z) (next : Z) (T : text -> Prop) (code : text -> Z)
  : Prop :=
  (forall t i, T t -> dict t = Some i -> code t = i) /\
  (forall t, T t -> dict t = None -> next <= code t) /\
  (forall t t', T t -> T t' -> code t = code t' -> t = t').

(** The triple x encodes a triple of the request, with the given numbering (None = a text
    without a number). *)
Definition encodes (num : text -> option Z) (l : list ttriple) (x : elem) : Prop :=
  exists t, In t l /\ let '(a, b, c) := x in
    num (tx_s t) = Some a /\ num (tx_p t) = Some b /\ num (tx_o t) = Some c.

(** Every text without a number occurs at most once in a position. *)
Definition text_eq_dec : forall a b : text, {a = b} + {a <> b} := list_eq_dec Z.eq_dec.
Definition unknown_once (dict : text -> option Z) (texts : list text) : Prop :=
  forall t, dict t = None -> (count_occ text_eq_dec texts t <= 1)%nat.

(** Recording a sequence of requests on the database [base] (read by the iterator [out]).
    Each request is matched with the content left by the updates recorded before it; an
    update with triples gets its own files, which an iterator [di] reads back, and an
    update without triples is not recorded (updater.cpp 338, creatediffupdate).  [h] are the
    recorded updates, [d] the iterators over them and [r] the requests. *)
Inductive session (fuel : nat) (so : sorters) (out : pitr)
  : list (bool * list elem) -> list (bool * pitr) -> requests -> Prop :=
| ses_start : session fuel so out [] [] []
| ses_recorded h d r ty input o rec di :
    session fuel so out h d r ->
    overlay fuel so (-1) d out = Some o ->
    upd_match fuel ty o input = Some rec ->
    rec <> [] -> Yields true rec di ->
    session fuel so out (h ++ [(is_delete ty, rec)]) (d ++ [(is_delete ty, di)]) (r ++ [(ty, input)])
| ses_empty h d r ty input o :
    session fuel so out h d r ->
    overlay fuel so (-1) d out = Some o ->
    upd_match fuel ty o input = Some [] ->
    session fuel so out h d (r ++ [(ty, input)]).
