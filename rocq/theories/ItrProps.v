(** C03, C04, C05, C06, C38, C39: iterators and the overlay of updates. *)
From Coq Require Import Sorted Permutation.
From Verif Require Import ItrModel ItrSpec ItrProofs CompProofs ScanProofs ArrayModel ArrayProofs.
Local Open Scope Z_scope.

(** What [Yields] means for a client: draining the iterator returns the list. *)
Theorem C03_yields_is_drain : forall cnt l o fuel,
  Yields cnt l o -> (length l < fuel)%nat -> drain fuel o = Some l.
Proof. exact Yields_drain. Qed.
Print Assumptions C03_yields_is_drain.

(** C03.  Without constraints an iterator over a non-empty array of pairs delivers the
    pairs of the array in order. *)
Theorem C03_array_no_constraint : forall k arr, arr <> [] ->
  exists o, new_arr_itr k arr (-1) (-1) = Some o /\ Yields false (with_key k arr) o.
Proof. intros k arr H. destruct (arr_all k arr H) as (o & Ho & Hy & _); eauto. Qed.
Print Assumptions C03_array_no_constraint.

(** C03.  With constraints it delivers exactly the matching pairs, provided the first
    constraint occurs in the array and the second constraint is absent, or met by some pair
    with that first value, or no other first value occurs. *)
Theorem C03_array_constrained_partial : forall k arr c1 c2,
  StronglySorted ple arr -> 0 <= c1 -> -1 <= c2 ->
  (exists e, In e arr /\ fst e = c1) ->
  (c2 = -1 \/ In (c1, c2) arr \/ (forall e, In e arr -> fst e = c1)) ->
  exists o, new_arr_itr k arr c1 c2 = Some o /\
    Yields false (with_key k (filter (pair_matches c1 c2) arr)) o.
Proof.
  intros k arr c1 c2 Hs H1 H2 H3 H4.
  destruct (arr_constrained k arr c1 c2 Hs H1 H2 H3 H4) as (o & Ho & Hy & _); eauto.
Qed.
Print Assumptions C03_array_constrained_partial.

(** C03 fails without those provisos: a constraint that no pair meets still delivers pairs. *)
Theorem C03_absent_first_refuted :
  exists arr c1, StronglySorted ple arr /\ filter (pair_matches c1 (-1)) arr = [] /\
    exists o, new_arr_itr 0 arr c1 (-1) = Some o /\ drain 5 o = Some [(0, 1, 7)].
Proof.
  exists [(1, 7); (9, 9)], 5. split; [repeat constructor; unfold ple; cbn; lia|].
  split; [reflexivity|]. eexists; split; [reflexivity|vm_compute; reflexivity].
Qed.
Print Assumptions C03_absent_first_refuted.

Theorem C03_absent_second_refuted :
  exists arr c1 c2, StronglySorted ple arr /\ filter (pair_matches c1 c2) arr = [] /\
    exists o, new_arr_itr 0 arr c1 c2 = Some o /\ drain 5 o = Some [(0, 2, 5)].
Proof.
  exists [(1, 2); (2, 5)], 1, 5. split; [repeat constructor; unfold ple; cbn; lia|].
  split; [reflexivity|]. eexists; split; [reflexivity|vm_compute; reflexivity].
Qed.
Print Assumptions C03_absent_second_refuted.

(** C03.  An iterator over an empty array claims to have an element; asking for it throws. *)
Theorem C03_empty_array_refuted :
  exists o o1, new_arr_itr 0 [] (-1) (-1) = Some o /\ hasNext o = Some (true, o1) /\ next o1 = None.
Proof.
  do 2 eexists. split; [reflexivity|]. rewrite arr_obj_hasNext. split; reflexivity.
Qed.
Print Assumptions C03_empty_array_refuted.

Example C03_nonvacuous :
  let arr := [(1, 7); (2, 3); (2, 5); (2, 8); (9, 9)] in
  StronglySorted ple arr /\ (exists e, In e arr /\ fst e = 2) /\ In (2, 5) arr /\
  (exists o, new_arr_itr 4 arr 2 5 = Some o /\ drain 9 o = Some [(4, 2, 5)]) /\
  (exists o, new_arr_itr 4 arr 2 (-1) = Some o /\ drain 9 o = Some [(4, 2, 3); (4, 2, 5); (4, 2, 8)]).
Proof.
  cbv zeta. split; [repeat constructor; unfold ple; cbn; lia|].
  split; [exists (2, 3); cbn; auto|]. split; [cbn; auto|].
  split; eexists; (split; [reflexivity|vm_compute; reflexivity]).
Qed.

(** C39 for arrays.  After next, moveto(c1,c2) skips exactly the pairs before (c1,c2); the
    current pair is delivered again if it is not before (c1,c2). *)
Theorem C39_array_moveto : forall s c1 c2,
  StronglySorted ple (a_arr s) -> a_ign s = false -> a_c1 s = -1 ->
  1 <= a_pos s <= Z.of_nat (length (a_arr s)) ->
  Some (a_v1 s, a_v2 s) = nth_error (a_arr s) (Z.to_nat (a_pos s - 1)) ->
  exists o, moveto (arr_obj s) c1 c2 = Some o /\
    Yields false (with_key (a_key s) (filter (fun e => negb (pair_lt e c1 c2))
                     (skipn (Z.to_nat (a_pos s - 1)) (a_arr s)))) o.
Proof.
  intros s c1 c2 Hs Hi Hc Hp Hv.
  destruct (arr_moveto_ok s c1 c2 Hs Hi) as (o & Ho & Hy); auto.
  - symmetry in Hv. apply (nth_error_nth _ _ (0, 0)) in Hv. unfold nthp. auto.
  - unfold ok12. rewrite Hc. reflexivity.
  - exists o; split; auto. revert Hy. unfold from.
    assert (Hss : StronglySorted ple (skipn (Z.to_nat (a_pos s - 1)) (a_arr s)))
      by (apply (from_sorted (a_arr s) (a_pos s - 1)); auto).
    revert Hss. generalize (skipn (Z.to_nat (a_pos s - 1)) (a_arr s)). intros l Hss.
    replace (takewhile _ _) with (filter (fun e => negb (pair_lt e c1 c2)) l); auto.
    assert (Hok : forall m, takewhile (ok12 (a_c1 s) (a_c2 s)) m = m).
    { rewrite Hc. clear. induction m as [|a m IH]; [reflexivity|]. cbn [takewhile].
      replace (ok12 (-1) (a_c2 s) a) with true by reflexivity. now rewrite IH. }
    rewrite Hok. clear Hok.
    induction Hss as [|a l Hss IH Hf]; auto. cbn [filter dropwhile].
    destruct (pair_lt a c1 c2) eqn:E; cbn [negb]; auto.
    f_equal. clear IH Hss. induction l as [|b l IH]; auto. cbn [filter].
    inversion Hf as [|? ? Hab Hf']; subst.
    replace (pair_lt b c1 c2) with false.
    + cbn [negb]. f_equal. auto.
    + unfold pair_lt, ple in *. lia.
Qed.
Print Assumptions C39_array_moveto.

Example C39_nonvacuous :
  let s := mkArr [(1, 7); (2, 3); (2, 5); (2, 8); (9, 9)] 2 2 3 0 false true false 0 (-1) (-1) 4 in
  Some (a_v1 s, a_v2 s) = nth_error (a_arr s) (Z.to_nat (a_pos s - 1)) /\
  exists o, moveto (arr_obj s) 2 6 = Some o /\ drain 9 o = Some [(4, 2, 8); (4, 9, 9)].
Proof. split; [reflexivity|]. eexists; split; [vm_compute; reflexivity|]. vm_compute. reflexivity. Qed.

(** C38.  When the requested permutation of a key is not stored, the iterator built from
    the opposite permutation delivers the swapped pairs, sorted, restricted to the
    constraints. *)
Theorem C38_reverse_iterator : forall fuel cnt l old k v1 v2,
  Yields cnt l old -> (length l < fuel)%nat -> -1 <= v1 -> -1 <= v2 -> (v1 = -1 -> v2 = -1) ->
  exists o R, newItrOnReverse fuel old k v1 v2 = Some o /\ Yields false (with_key k R) o /\
    StronglySorted ple R /\
    Permutation R (filter (pair_matches v1 v2) (map (fun x => (snd x, snd (fst x))) l)).
Proof. exact reverse_ok. Qed.
Print Assumptions C38_reverse_iterator.

Example C38_nonvacuous :
  exists o, newItrOnReverse 9 (list_itr (0,0,0) [(4, 1, 7); (4, 2, 3); (4, 2, 7); (4, 9, 1)]) 4 7 (-1)
    = Some o /\ drain 9 o = Some [(4, 7, 1); (4, 7, 2)].
Proof. eexists; split; [vm_compute; reflexivity|vm_compute; reflexivity]. Qed.

(** C04.  Removing deletes from a main iterator: exactly the elements of the main iterator
    that are not in the deletion iterator, in the same order.  [fuel] bounds the loops of the
    model and only has to be large enough. *)
Theorem C04_rmitr_set_difference : forall fuel M D main del,
  Yields true M main -> Yields false D del ->
  StronglySorted ele M -> StronglySorted ele D ->
  (length M + length D + 1 < fuel)%nat ->
  exists o, new_rm_itr fuel main del = Some o /\ Yields true (minus M D) o.
Proof. exact new_rm_yields. Qed.
Print Assumptions C04_rmitr_set_difference.

Example C04_nonvacuous :
  let M := [(1, 2, 3); (1, 2, 5); (1, 4, 0); (2, 0, 0)] in
  let D := [(1, 2, 4); (1, 2, 5); (2, 0, 0)] in
  StronglySorted ele M /\ StronglySorted ele D /\
  Yields true M (list_itr (0,0,0) M) /\ Yields false D (list_itr (0,0,0) D) /\
  exists o, new_rm_itr 9 (list_itr (0,0,0) M) (list_itr (0,0,0) D) = Some o /\
    drain 9 o = Some [(1, 2, 3); (1, 4, 0)].
Proof.
  cbv zeta. split; [|split; [|split; [apply list_yields|split; [apply list_yields|]]]].
  - repeat constructor; unfold ele, elt; lia.
  - repeat constructor; unfold ele, elt; lia.
  - eexists; split; [reflexivity|vm_compute; reflexivity].
Qed.

(** C04 fails if the main iterator is an ArrayItr, as it is when the permutation of
    the key is not stored: iteration throws. *)
Theorem C04_array_main_refuted :
  exists main del o, new_arr_itr 1 [(2, 3)] (-1) (-1) = Some main /\
    Yields false [(1, 2, 4)] del /\ new_rm_itr 9 main del = Some o /\ hasNext o = None.
Proof.
  do 3 eexists. split; [reflexivity|]. split; [apply (list_yields false [(1,2,4)] (0,0,0))|].
  split; vm_compute; reflexivity.
Qed.
Print Assumptions C04_array_main_refuted.

(** C05.  The union of iterators over one key delivers, in order, every element of every
    child as often as the children hold it.  The children have been asked hasNext. *)
Theorem C05_composite_union : forall sortf k (P : list (pitr * list elem)) R,
  std_sort comp_gt sortf -> P <> [] ->
  Forall (fun p => snd p <> [] /\ Ready false (snd p) (fst p) /\ StronglySorted ele (snd p) /\
                   Forall (fun x => fst (fst x) = k) (snd p)) P ->
  StronglySorted ele R -> Permutation R (concat (map snd P)) ->
  Yields true R (new_comp_itr sortf (map fst P) k).
Proof.
  intros sf k P R Hsf Hne HP HsR HpR.
  apply (new_comp_yields sf k P R Hsf HP Hne HsR HpR).
Qed.
Print Assumptions C05_composite_union.

(** C05.  The same for full scans, where children hold several keys. *)
Theorem C05_compositescan_union : forall sortn sorti (P : list (pitr * list elem)) R,
  std_sort cscan_gt sortn ->
  Forall (fun p => Yields false (snd p) (fst p) /\ StronglySorted ele (snd p)) P ->
  StronglySorted ele R -> Permutation R (concat (map snd P)) ->
  exists o, new_cscan_itr sortn sorti (map fst P) = Some o /\ Yields true R o.
Proof. exact new_cscan_yields. Qed.
Print Assumptions C05_compositescan_union.

(** Insertion sorts meet the specification of std::sort. *)
Definition isort (gt : pitr -> pitr -> bool) : list pitr -> list pitr :=
  fold_right (fun x => fix ins l := match l with
     | [] => [x] | y :: t => if gt y x then y :: ins t else x :: l end) [].

Example C05_nonvacuous :
  let a := [(1, 2, 3); (1, 2, 5)] in let b := [(1, 2, 4); (1, 7, 7)] in let c := [(1, 2, 5)] in
  drain 9 (new_comp_itr (isort comp_gt) [list_itr (0,0,0) a; list_itr (0,0,0) b; list_itr (0,0,0) c] 1)
    = Some [(1, 2, 3); (1, 2, 4); (1, 2, 5); (1, 2, 5); (1, 7, 7)] /\
  exists o, new_cscan_itr (isort cscan_gt) (isort cscan_gt_ign)
     [list_itr (0,0,0) ((0, 9, 9) :: a); list_itr (0,0,0) b; list_itr (0,0,0) c] = Some o /\
  drain 9 o = Some [(0, 9, 9); (1, 2, 3); (1, 2, 4); (1, 2, 5); (1, 2, 5); (1, 7, 7)].
Proof.
  cbv zeta. split; [vm_compute; reflexivity|].
  eexists; split; vm_compute; reflexivity.
Qed.

Lemma isort_std gt : (forall a b, gt a b = true -> gt b a = false) ->
  (forall a b c, gt b a = false -> gt c b = false -> gt c a = false) ->
  std_sort gt (isort gt).
Proof.
  intros Has Htr l. unfold isort.
  set (ins := fun x => fix ins l := match l with
     | [] => [x] | y :: t => if gt y x then y :: ins t else x :: l end).
  assert (Hp : forall x m, Permutation (ins x m) (x :: m)).
  { intros x m. induction m as [|y m IH]; cbn; auto. destruct (gt y x); auto.
    rewrite IH. apply perm_swap. }
  induction l as [|a l [IHp IHs]]; cbn [fold_right]; [split; constructor|].
  split.
  - rewrite Hp. constructor. exact IHp.
  - revert IHs. generalize (fold_right ins [] l). intros m Hm.
    induction Hm as [|y m Hm IH Hf]; cbn; [repeat constructor|].
    destruct (gt y a) eqn:E.
    + constructor; auto. rewrite Forall_forall in *. intros z Hz.
      eapply Permutation_in in Hz; [|apply Hp]. destruct Hz as [<-|Hz]; auto.
    + constructor; [constructor; auto|]. constructor; auto.
      rewrite Forall_forall in *. intros z Hz. eapply Htr; [exact E|]. auto.
Qed.

Example std_sort_nonvacuous :
  std_sort comp_gt (isort comp_gt) /\ std_sort cscan_gt (isort cscan_gt).
Proof.
  split; apply isort_std.
  - intros a b. unfold comp_gt. lia.
  - intros a b c. unfold comp_gt. lia.
  - intros a b H. apply cscan_gt_spec. unfold cscan_gt in H.
    unfold ele, elt, cur. left.
    destruct (key b <? key a) eqn:?, (key a =? key b) eqn:?, (value1 b <? value1 a) eqn:?,
      (value1 a =? value1 b) eqn:?; lia || discriminate.
  - intros a b c H1 H2. apply cscan_gt_spec. apply cscan_gt_spec in H1, H2. eapply ele_trans; eauto.
Qed.

(** C06.  A query over the database after any history of updates sees exactly the triples
    obtained by replaying the history on the base data.  [first] is the key requested,
    or negative for a scan; [base] and the contents of the updates are the triples that
    match the request. *)
Theorem C06_query_sees_history :
  forall fuel so first base h diffs out,
  std_sort comp_gt (sort_comp so) -> std_sort cscan_gt (sort_scan so) ->
  Yields true base out -> StronglySorted elt base ->
  (0 <= first -> Forall (fun x => fst (fst x) = first) base) ->
  Forall2 (fun (u : bool * list elem) (d : bool * pitr) =>
     fst d = fst u /\ Yields true (snd u) (snd d) /\ StronglySorted elt (snd u) /\
     (0 <= first -> Forall (fun x => fst (fst x) = first) (snd u))) h diffs ->
  valid_history (fun x => In x base) h ->
  (length base + list_sum (map (fun u => length (snd u)) h) + 1 < fuel)%nat ->
  exists o R, overlay fuel so first diffs out = Some o /\ Yields true R o /\
    StronglySorted elt R /\ (forall x, In x R <-> replay (fun y => In y base) h x).
Proof.
  intros fuel so first base h diffs out Hs1 Hs2 Hy Hsb Hk HF Hv Hfu.
  apply overlay_ok; auto using valid_readable.
  - split; auto.
  - split; [exact Hy|]. split; [now apply strict_sorted|exact Hk].
  - clear - HF. induction HF as [|u d h diffs (H1 & H2 & H3 & H4) HF IH]; constructor; auto.
    split; auto. split; auto. split; auto. split; auto. now apply strict_sorted.
  - assert (He : list_sum (map (fun u => length (snd u)) h) = hist_size h).
    { clear. induction h as [|u h IH]; cbn; auto. }
    rewrite He in Hfu. exact Hfu.
Qed.
Print Assumptions C06_query_sees_history.

Example C06_nonvacuous :
  let base := [(1, 2, 3); (1, 2, 5); (1, 4, 4)] in
  let h := [(false, [(1, 2, 4); (1, 9, 9)]); (true, [(1, 2, 3); (1, 9, 9)]); (false, [(1, 2, 3)])] in
  let diffs := map (fun u => (fst u, list_itr (0,0,0) (snd u))) h in
  let so := {| sort_comp := isort comp_gt; sort_scan := isort cscan_gt; sort_scan_ign := isort cscan_gt_ign |} in
  valid_history (fun x => In x base) h /\
  exists o, overlay 30 so 1 diffs (list_itr (0,0,0) base) = Some o /\
    drain 9 o = Some [(1, 2, 3); (1, 2, 4); (1, 2, 5); (1, 4, 4)].
Proof.
  cbv zeta. split.
  - cbn [valid_history]. unfold step_set; cbn [fst snd].
    repeat split; intros x Hx; cbn in Hx |- *;
      repeat (destruct Hx as [<-|Hx]; [cbn; intuition congruence|]); contradiction.
  - eexists; split; vm_compute; reflexivity.
Qed.
