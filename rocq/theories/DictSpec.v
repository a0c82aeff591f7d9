(** Specification of the dictionary. *)
From Coq Require Import Permutation.
From Verif Require Export DictModel UpdSpec.
Local Open Scope Z_scope.

(** The dictionary d contains exactly the pairs A: lookups in both directions find the
    pairs of A and nothing else. *)
Definition contains (d : dm) (A : list (text * Z)) : Prop :=
  forall t i, (get_number d t = Some i <-> In (t, i) A) /\
              (get_text d i = Some t <-> In (t, i) A).

(** The new terms of an update: texts that have no identifier yet, with fresh identifiers. *)
Definition new_terms (A : list (text * Z)) (next : Z) (l : list (text * Z)) : Prop :=
  NoDup (map fst l) /\ NoDup (map snd l) /\
  (forall t i, In (t, i) l -> ~ In t (map fst A) /\ next <= i < 2 ^ 63).

(** Texts that survive the file of the small updates. *)
Definition plain (t : text) : Prop := t <> [] /\ Forall (fun c => isspace c = false) t.

(** A database is loaded from popular and other terms, and then updated any number of times; each
    update opens the database, adds terms and closes it.  [A] are the terms so far. *)
Inductive history (limit fuel : nat) (enum : list (Z * text) -> list (Z * text))
  : disk -> list (text * Z) -> Prop :=
| h_load popular others l m :
    insert_dictionary popular others = (l, m) ->
    NoDup (popular ++ others) ->
    Z.of_nat (length (popular ++ others)) < 2 ^ 63 ->
    history limit fuel enum (mkDisk l (m + 1) [] None)
      (combine (popular ++ others) (map Z.of_nat (seq 0 (length (popular ++ others)))))
| h_update k A d next new k' :
    history limit fuel enum k A ->
    open_dict fuel k = Some (d, next) ->
    new_terms A next new ->
    ((length new < limit)%nat -> Forall (fun e => plain (fst e)) new) ->
    record_terms limit fuel enum k new = Some k' ->
    history limit fuel enum k' (A ++ new).
