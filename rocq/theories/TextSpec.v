(** Specification of a database of textual triples that is loaded and updated. *)
From Coq Require Import Sorted Permutation.
From Verif Require Export DictSpec.
Local Open Scope Z_scope.

Definition ttt : Type := text * text * text.
Definition texts_of (t : ttriple) : ttt := (tx_s t, tx_p t, tx_o t).
Definition trequests := list (utype * list ttriple).

(** What a user expects of a sequence of requests. *)
Definition tstep (S : ttt -> Prop) (u : utype * list ttriple) : ttt -> Prop :=
  fun x => match fst u with
           | ADDITION_df => S x \/ In x (map texts_of (snd u))
           | DELETE_df => S x /\ ~ In x (map texts_of (snd u))
           end.
Definition treplay (S : ttt -> Prop) (r : trequests) : ttt -> Prop := fold_left tstep r S.
Definition tsize (r : trequests) : nat := list_sum (map (fun u => length (snd u)) r).

(** The textual triples that the numeric triples [R] stand for, with a dictionary. *)
Definition shown (num : text -> option Z) (R : list elem) : ttt -> Prop :=
  fun x => let '(s, p, o) := x in
  exists a b c, num s = Some a /\ num p = Some b /\ num o = Some c /\ In (a, b, c) R.

(** Requests for which C08 and C44 are proved. *)
Definition good_request (maxterm : nat) (dict : text -> option Z) (next : Z)
    (ty : utype) (triples : list ttriple) : Prop :=
  (forall t, is_term triples t -> t <> [] /\ (length t <= maxterm)%nat) /\
  next + 3 * Z.of_nat (length triples) < 2 ^ 63 /\
  match ty with
  | ADDITION_df => (forall t, In t (subjects triples) -> ~ In 0 t)
  | DELETE_df => unknown_once dict (subjects triples) /\ unknown_once dict (predicates triples) /\
                 unknown_once dict (objects triples)
  end.

Section Session.
  Variable limit maxterm fuel : nat.
  Variable so : sorters.                                  (** the sorting of the iterators *)
  Variable tso : sorts.                                   (** the sorting of the updater *)
  Variable enum : list (Z * text) -> list (Z * text).     (** enumeration of hash maps *)
  Variable enumt : list (text * Z) -> list (text * Z).
  Variable popular others : list text.                    (** the terms of the first load *)
  Variable out : pitr.                                    (** iterator over the loaded triples *)

  (** The state of the database after the requests [r] (Updater::creatediffupdate,
      updater.cpp 318-369): the files of the dictionary [k] and iterators over the recorded
      updates [d].  An update that changes nothing is not recorded; a recorded update is read
      back by some iterator [di] over its triples. *)
  Inductive tsession : disk -> list (bool * pitr) -> trequests -> Prop :=
  | ts_load l m :
      insert_dictionary popular others = (l, m) ->
      tsession (mkDisk l (m + 1) [] None) [] []
  | ts_empty k d r ty triples dict next o tmp :
      tsession k d r ->
      open_dict fuel k = Some (dict, next) ->
      overlay fuel so (-1) d out = Some o ->
      good_request maxterm (get_number dict) next ty triples ->
      compress_update (get_number dict) maxterm fuel ty tso next o triples = Some ([], tmp) ->
      tsession k d (r ++ [(ty, triples)])
  | ts_add k d r triples dict next o rec tmp di k' :
      tsession k d r ->
      open_dict fuel k = Some (dict, next) ->
      overlay fuel so (-1) d out = Some o ->
      good_request maxterm (get_number dict) next ADDITION_df triples ->
      compress_update (get_number dict) maxterm fuel ADDITION_df tso next o triples = Some (rec, tmp) ->
      rec <> [] -> Yields true rec di ->
      ((length tmp < limit)%nat -> Forall (fun e => plain (fst e)) tmp) ->
      record_terms limit fuel enum k (enumt tmp) = Some k' ->
      tsession k' (d ++ [(false, di)]) (r ++ [(ADDITION_df, triples)])
  | ts_del k d r triples dict next o rec tmp di :
      tsession k d r ->
      open_dict fuel k = Some (dict, next) ->
      overlay fuel so (-1) d out = Some o ->
      good_request maxterm (get_number dict) next DELETE_df triples ->
      compress_update (get_number dict) maxterm fuel DELETE_df tso next o triples = Some (rec, tmp) ->
      rec <> [] -> Yields true rec di ->
      tsession k (d ++ [(true, di)]) (r ++ [(DELETE_df, triples)]).
End Session.

(** The textual triples of the first load: term number i is the i-th of the terms. *)
Definition loaded (terms : list text) (base : list elem) : ttt -> Prop :=
  fun x => let '(s, p, o) := x in
  exists a b c, nth_error terms a = Some s /\ nth_error terms b = Some p /\ nth_error terms c = Some o /\
    In (Z.of_nat a, Z.of_nat b, Z.of_nat c) base.
