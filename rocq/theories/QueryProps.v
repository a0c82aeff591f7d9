(** C01, C02: index choice and permutations. *)
From Verif Require Import QueryModel QuerySpec QueryProofs.
From Coq Require Import Sorted.
Local Open Scope Z_scope.

(** C01.  In any list of triples sorted by the permutation that the engine selects for
    the pattern (s,p,o), the triples that match the pattern are one contiguous run. *)
Theorem C01_index_answers_contiguous :
  forall s p o l ord,
    perm_positions (getIndex s p o) = Some ord ->
    StronglySorted (lex_le ord) l ->
    exists pre run post, l = pre ++ run ++ post /\
      Forall (matches (s, p, o)) run /\
      Forall (fun t => ~ matches (s, p, o) t) pre /\
      Forall (fun t => ~ matches (s, p, o) t) post.
Proof. exact getIndex_contiguous. Qed.
Print Assumptions C01_index_answers_contiguous.

(** C01.  A permutation is selected for every pattern and no bound position comes after
    a free one. *)
Theorem C01_index_bound_positions_first :
  forall s p o, exists ord, perm_positions (getIndex s p o) = Some ord /\
    forall i j, (i < j < 3)%nat ->
      0 <= field (s, p, o) (nth j ord 0%nat) -> 0 <= field (s, p, o) (nth i ord 0%nat).
Proof.
  intros s p o. destruct (getIndex_bound_first s p o) as (ord & He & Hb).
  exists ord; split; [exact He|]. intros i j Hij.
  destruct ord as [|a [|b [|c [|? ?]]]]; cbn in Hb; try contradiction.
  destruct Hb as [Hb Hc].
  assert (Hd : (i = 0 /\ j = 1 \/ i = 0 /\ j = 2 \/ i = 1 /\ j = 2)%nat) by lia.
  destruct Hd as [[-> ->]|[[-> ->]|[-> ->]]]; cbn [nth]; auto.
Qed.
Print Assumptions C01_index_bound_positions_first.

(** C01.  Constants come before variables that a join will bind (-2), and these come
    before free variables (-1). *)
Theorem C01_index_join_positions_before_free :
  forall s p o ord i j,
  -2 <= s -> -2 <= p -> -2 <= o ->
  perm_positions (getIndex s p o) = Some ord ->
  (i < j < 3)%nat ->
  let rank v := if 0 <=? v then 0 else if v =? -2 then 1 else 2 in
  rank (field (s, p, o) (nth i ord 0%nat)) <= rank (field (s, p, o) (nth j ord 0%nat)).
Proof. exact getIndex_rank. Qed.
Print Assumptions C01_index_join_positions_before_free.

Example C01_nonvacuous :
  perm_positions (getIndex (-1) 7 9) = Some [2; 1; 0]%nat /\
  StronglySorted (lex_le [2; 1; 0]%nat) [(4, 7, 8); (1, 6, 9); (1, 7, 9); (3, 7, 9); (0, 0, 10)]
  /\ matches (-1, 7, 9) (3, 7, 9).
Proof.
  split; [reflexivity|]. split.
  - repeat (constructor; cbn; try lia).
  - intros [|[|[|i]]] Hi; unfold matches1; cbn; lia.
Qed.

(** C02.  The order tables of the code are the permutations their names say, and
    re-ordering then un-ordering (and conversely) is the identity on all triples. *)
Theorem C02_order_inverse :
  forall idx t, is_perm idx ->
  exists ord inv, getOrder idx = Some ord /\ getInvOrder idx = Some inv /\
    perm_positions idx = Some ord /\
    reorder inv (reorder ord t) = t /\ reorder ord (reorder inv t) = t.
Proof. exact order_roundtrip. Qed.
Print Assumptions C02_order_inverse.

(** C02.  A request in permuted order (el1,el2,el3) reaches the iterator as
    key el1, first constraint el2, second constraint el3. *)
Theorem C02_permuted_request :
  forall idx el1 el2 el3, is_perm idx ->
  exists s p o, getPermuted_args idx el1 el2 el3 = Some (s, p, o) /\
    getIterator_split idx s p o = Some (el1, el2, el3).
Proof. exact permuted_roundtrip. Qed.
Print Assumptions C02_permuted_request.

(** C02.  The iterator for permutation idx takes key and constraints from the pattern in
    the order given by the permutation's name. *)
Theorem C02_split_follows_name :
  forall idx s p o, is_perm idx ->
  exists ord, perm_positions idx = Some ord /\
    getIterator_split idx s p o = Some (reorder ord (s, p, o)).
Proof. exact split_is_order. Qed.
Print Assumptions C02_split_follows_name.

Example C02_nonvacuous : is_perm IDX_POS /\
  getIterator_split IDX_POS 1 2 3 = Some (2, 3, 1).
Proof. split; [unfold is_perm, IDX_POS; lia | reflexivity]. Qed.
