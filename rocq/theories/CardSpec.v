(** Specification for counting answers, independent of the model. *)
From Verif Require Export QuerySpec ItrSpec CardModel.
Local Open Scope Z_scope.

(** The number of triples of a list that match a pattern (negative: any value). *)
Definition matchb (pat t : triple) : bool :=
  let ok i := (field pat i <? 0) || (field pat i =? field t i) in ok 0%nat && ok 1%nat && ok 2%nat.
Definition cnt (pat : triple) (l : list triple) : Z := Z.of_nat (length (filter (matchb pat) l)).
(** The number of different values of a function on the triples that match. *)
Definition distinct {A} (dec : forall x y : A, {x = y} + {x <> y}) (f : triple -> A) (pat : triple) (l : list triple) : Z :=
  Z.of_nat (length (nodup dec (map f (filter (matchb pat) l)))).

(** The triples after a history of updates: (true, d) deletes d, (false, d) adds d. *)
Definition apply_update (l : list triple) (u : bool * list triple) : list triple :=
  if fst u then minus l (snd u) else l ++ snd u.
Definition current (base : list triple) (h : list (bool * list triple)) : list triple := fold_left apply_update h base.
Fixpoint valid (l : list triple) (h : list (bool * list triple)) : Prop :=
  match h with
  | [] => True
  | u :: h' => NoDup (snd u) /\ (forall t, In t (snd u) -> if fst u then In t l else ~ In t l) /\ valid (apply_update l u) h'
  end.

(** The pattern that fixes the first position of an index. *)
Definition key_pattern (ord : list nat) (k : Z) : triple :=
  match nth 0 ord 3%nat with 0%nat => (k, -1, -1) | 1%nat => (-1, k, -1) | _ => (-1, -1, k) end.

(** An engine over the base triples and the updates: tree entries count the base triples of a
    term; a table of an index number 3 to 5 may be missing when the one of index - 3 exists;
    updates count their triples; iterators tell the truth for patterns with variables -1. *)
Definition entry (base : list triple) (ord : list nat) (k : Z) (e : option Z) : Prop :=
  let n := cnt (key_pattern ord k) base in (n = 0 /\ e = None) \/ (0 < n /\ e = Some n).
Record engine_of (base : list triple) (h : list (bool * list triple)) (g : engine) : Prop := {
  eo_input : g_input g = Z.of_nat (length base);
  eo_diffs : Forall2 (fun u d => d_del d = fst u /\ d_size d = Z.of_nat (length (snd u)) /\
      forall idx ord k, perm_positions idx = Some ord -> 0 <= k -> d_card d idx k = cnt (key_pattern ord k) (snd u)) h (g_diffs g);
  eo_tree : forall k, 0 <= k ->
      match g_tree g k with
      | Some v => forall idx ord, perm_positions idx = Some ord -> idx < 3 -> g_present g idx = true -> entry base ord k (v idx)
      | None => forall idx ord, perm_positions idx = Some ord -> cnt (key_pattern ord k) base = 0
      end;
  eo_it : forall idx ord s p o, perm_positions idx = Some ord -> -1 <= s -> -1 <= p -> -1 <= o ->
      (let '(a, b, c) := reorder ord (s, p, o) in 0 <= a /\ (b < 0 -> c < 0)) ->
      let n := cnt (s, p, o) (current base h) in
      let itr := g_it g idx s p o in
      (i_empty itr = true -> n = 0) /\ (i_empty itr = false -> i_has itr = (0 <? n)) /\ i_card itr = Some n /\
      i_card_ign itr = Some (distinct Z.eq_dec (fun t => field t (nth 1 ord 3%nat)) (s, p, o) (current base h))
}.
(** All tables are stored. *)
Definition all_tables (base : list triple) (g : engine) : Prop :=
  forall k v idx ord, 0 <= k -> g_tree g k = Some v -> perm_positions idx = Some ord -> g_present g idx = true /\ entry base ord k (v idx).
(** The cache is empty or holds the entry of its term. *)
Definition cache_ok (g : engine) (c : cache) : Prop :=
  (c_last c = -1 /\ c_found c = false) \/
  (0 <= c_last c /\ match g_tree g (c_last c) with Some v => c_found c = true /\ c_val c = v | None => c_found c = false end).
