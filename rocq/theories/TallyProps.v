(** C42 for the iterators that combine tables with updates. *)
From Coq Require Import Sorted Permutation Lia.
From Verif Require Import TallySpec ItrModel ItrProofs CompProofs ScanProofs TableModel TableSpec TableProofs TableProps
  TallyProofs TallyProofs2 TallyProofs3.
Local Open Scope Z_scope.

(** Two-column tables with key 5 used in the examples: clustered and row layout. *)
Definition ex_cl (l : list (Z * Z)) : pitr := cl_obj (cl_setup 1 1 1 (cl_write 1 1 1 l) 5 0 (zl (cl_write 1 1 1 l))).
Definition ex_row (l : list (Z * Z)) : pitr := row_obj (row_setup 1 1 (row_write 1 1 l) 5 0 (zl (row_write 1 1 l))).
Fixpoint ex_insert (gt : pitr -> pitr -> bool) (x : pitr) (l : list pitr) : list pitr :=
  match l with [] => [x] | y :: t => if gt y x then y :: ex_insert gt x t else x :: l end.
Definition ex_isort (gt : pitr -> pitr -> bool) (l : list pitr) : list pitr := fold_right (ex_insert gt) [] l.
Definition ex_sorters : sorters :=
  {| sort_comp := ex_isort comp_gt; sort_scan := ex_isort cscan_gt; sort_scan_ign := ex_isort cscan_gt_ign |}.

Lemma ex_isort_ok gt : (forall a b c, gt a b = true -> gt c b = false -> gt c a = false) ->
  (forall a b, gt a b = true -> gt b a = false) -> (forall a b c, gt b a = false -> gt c b = false -> gt c a = false) -> std_sort gt (ex_isort gt).
Proof.
  intros _ Has Htr l.
  assert (Hins : forall x l, Permutation (ex_insert gt x l) (x :: l)).
  { intros x m. induction m as [|y m IH]; cbn; auto. destruct (gt y x); auto. rewrite IH. apply perm_swap. }
  assert (Hs : forall x l, StronglySorted (fun a b => gt b a = false) l -> StronglySorted (fun a b => gt b a = false) (ex_insert gt x l)).
  { intros x m. induction 1 as [|y m Hm IH F]; cbn; [repeat constructor|]. destruct (gt y x) eqn:E.
    - constructor; auto. eapply Permutation_Forall; [symmetry; apply Hins|]. constructor; auto.
    - constructor; [constructor; auto|]. constructor; auto. eapply Forall_impl; [|exact F]. intros a Ha. cbn in *. eapply Htr; eauto. }
  unfold ex_isort. induction l as [|x l [IH1 IH2]]; cbn; [split; auto; constructor|]. split; [rewrite Hins; auto|auto].
Qed.
Lemma ex_sorters_ok : sorters_ok ex_sorters.
Proof.
  split; cbn; apply ex_isort_ok; unfold comp_gt, cscan_gt; intros; try lia.
  all: repeat match goal with H : context [if ?b then _ else _] |- _ => destruct b eqn:? end; try discriminate;
    repeat match goal with |- context [if ?b then _ else _] => destruct b eqn:? end; try lia; auto.
Qed.

(** C42.  A table of any of the three layouts: with the second column ignored it delivers the
    tally of its rows, whether it was polled before or not; and when the column is ignored on
    the first row, the iterator stands on the first entry. *)
Theorem C42_table_tally : forall k bk l o, StronglySorted plt l -> Table k bk l o ->
  Aggregates (with_key k l) o /\ (l <> [] -> AggregatesFirst (with_key k l) o).
Proof. intros k bk l o Hs HT. split; [eapply table_aggregates; eauto|]. intros. eapply table_aggregates_first; eauto. Qed.
Print Assumptions C42_table_tally.

Definition pairs1 : list (Z * Z) := [(1, 1); (1, 2); (1, 3); (2, 7)].
Definition pairs2 : list (Z * Z) := [(1, 9); (2, 1); (2, 8); (4, 4)].
Lemma ex_pairs_ok l : StronglySorted plt l -> pairs_fit 1 1 l -> counts_fit 1 l ->
  StronglySorted plt l /\ Table 5 true l (ex_cl l) /\ Table 5 false l (ex_row l).
Proof.
  intros HS HF HC. split; auto. split.
  - apply (C11_cluster_open 1 1 1 _ 5 0 l); unfold is_width; auto. exists [], []. now rewrite app_nil_r.
  - apply (C10_row_open 1 1 _ 5 0 l); unfold is_width; auto. exists [], []. now rewrite app_nil_r.
Qed.
Ltac ex_ok := apply ex_pairs_ok; [ssort | intros ? ? H; in_cases H; unfold fits; cbn; lia | intros ? ? H; in_cases H; unfold fits; cbn; lia].
Definition ex_ok1 : StronglySorted plt pairs1 /\ Table 5 true pairs1 (ex_cl pairs1) /\ Table 5 false pairs1 (ex_row pairs1).
Proof. ex_ok. Qed.
Definition ex_ok2 : StronglySorted plt pairs2 /\ Table 5 true pairs2 (ex_cl pairs2) /\ Table 5 false pairs2 (ex_row pairs2).
Proof. ex_ok. Qed.
Definition ex_ok3 : let l := [(1, 2); (2, 7)] in StronglySorted plt l /\ Table 5 true l (ex_cl l) /\ Table 5 false l (ex_row l).
Proof. ex_ok. Qed.
Definition ex_ok4 : let l := [(1, 1); (2, 7)] in StronglySorted plt l /\ Table 5 true l (ex_cl l) /\ Table 5 false l (ex_row l).
Proof. ex_ok. Qed.
Example C42_table_tally_case : StronglySorted plt pairs1 /\ Table 5 true pairs1 (ex_cl pairs1) /\
  is_tally (with_key 5 pairs1) [(5, 1, 3); (5, 2, 1)].
Proof.
  destruct ex_ok1 as (H1 & H2 & _). split; auto. split; auto.
  exact (groups_tally 5 pairs1 H1).
Qed.

(** C42.  What the client sees: the entries of the tally, until hasNext says no. *)
Theorem C42_tally_drain : forall l g o fuel, is_tally l g -> Tallies g o -> (length l < fuel)%nat -> tdrain fuel o = Some g.
Proof. intros l g o fuel T H Hf. apply Tallies_drain; auto. pose proof (tally_len _ _ T). lia. Qed.
Print Assumptions C42_tally_drain.

(** There is one tally for each list of rows. *)
Theorem C42_tally_unique : forall l, exists g, is_tally l g /\ forall g', is_tally l g' -> g' = g.
Proof.
  intros l. destruct (tally_exists l) as (g & Hg). exists g. split; auto. intros g' Hg'.
  apply rep_tally in Hg, Hg'. eapply rep_unique; eauto.
Qed.
Print Assumptions C42_tally_unique.

(** C42.  CompositeItr, which merges tables with the same key: when its children are not empty,
    have just been asked hasNext, and deliver the tallies of their rows, it delivers the tally of
    all rows together. *)
Theorem C42_composite_tally : forall sf k P R, std_sort comp_gt sf -> P <> [] ->
  Forall (fun p => snd p <> [] /\ Forall (fun x => fst (fst x) = k) (snd p) /\ sorted (snd p) /\
                   Ready true (snd p) (fst p) /\ Aggregates (snd p) (fst p)) P ->
  Permutation R (concat (map snd P)) -> sorted R ->
  Aggregates R (new_comp_itr sf (map fst P) k).
Proof. exact comp_aggregates. Qed.
Print Assumptions C42_composite_tally.

Lemma table_child k bk l o : StronglySorted plt l -> l <> [] -> Table k bk l o -> agg_child k (o, with_key k l).
Proof.
  intros Hs Hl HT. assert (HA : Aggregates (with_key k l) o) by (eapply table_aggregates; eauto).
  assert (Hk : key_is k (with_key k l)) by (apply Forall_map, Forall_forall; auto).
  assert (HsE : sorted (with_key k l)).
  { clear - Hs. unfold with_key. induction Hs as [|x l Hs IH F]; cbn; constructor; auto. rewrite Forall_map.
    eapply Forall_impl; [|exact F]. unfold plt, ele, elt. cbn. intros; lia. }
  destruct (agg_poll k _ o HA Hk HsE) as (o1 & E & Hp & Hc).
  destruct HT as ((S & HS & H) & _). destruct (HS _ _ _ _ H) as ((E' & _) & _).
  rewrite (pure_polls _ _ _ E' Hp) in Hc. apply Hc. destruct l; [contradiction|discriminate].
Qed.
Example C42_composite_tally_case :
  let P := [(ex_cl pairs1, with_key 5 pairs1); (ex_row pairs2, with_key 5 pairs2)] in
  Forall (fun p => snd p <> [] /\ Forall (fun x => fst (fst x) = 5) (snd p) /\ sorted (snd p) /\
                   Ready true (snd p) (fst p) /\ Aggregates (snd p) (fst p)) P /\
  (do o1 <- ignoreSecondColumn (new_comp_itr (sort_comp ex_sorters) (map fst P) 5); tdrain 10 o1) =
    Some [(5, 1, 4); (5, 2, 3); (5, 4, 1)].
Proof.
  split; [|vm_compute; reflexivity].
  destruct ex_ok1 as (H1 & H2 & _).
  destruct ex_ok2 as (H3 & _ & H4).
  constructor; [|constructor; [|constructor]].
  - apply (table_child 5 true pairs1); auto. discriminate.
  - apply (table_child 5 false pairs2); auto. discriminate.
Qed.

(** C42.  RmItr, which hides deleted rows: when the second column is ignored before the first
    call to hasNext, it delivers the tally of the rows that are left. *)
Theorem C42_removal_tally_partial : forall fuel M D main del,
  Aggregates M main -> AggregatesFirst D del -> NoDup M -> NoDup D -> incl D M ->
  (length M + length D < fuel)%nat ->
  exists o o1 g, new_rm_itr fuel main del = Some o /\ ignoreSecondColumn o = Some o1 /\
    is_tally (ItrSpec.minus M D) g /\ Tallies g o1.
Proof.
  intros fuel M D main del [_ HA] HF NM ND Hi Hf.
  destruct (rm_ignores fuel M D main del) as (o & o1 & g & E1 & E2 & T & HT); auto.
  { apply (HA main (polls_refl _)). }
  exists o, o1, g. auto.
Qed.
Print Assumptions C42_removal_tally_partial.
Example C42_removal_tally_case :
  Aggregates (with_key 5 pairs1) (ex_cl pairs1) /\ AggregatesFirst (with_key 5 [(1, 2); (2, 7)]) (ex_cl [(1, 2); (2, 7)]) /\
  incl (with_key 5 [(1, 2); (2, 7)]) (with_key 5 pairs1) /\
  (do o <- new_rm_itr 9 (ex_cl pairs1) (ex_cl [(1, 2); (2, 7)]); do o1 <- ignoreSecondColumn o; tdrain 10 o1) = Some [(5, 1, 2)].
Proof.
  destruct ex_ok1 as (H1 & H2 & _).
  destruct ex_ok3 as (H3 & H4 & _).
  split; [eapply table_aggregates; eauto|]. split; [eapply table_aggregates_first; eauto; discriminate|].
  split; [intros x Hx; cbn in *; tauto|]. vm_compute. reflexivity.
Qed.

(** C42.  A bound key with updates: additions and then at most one deletion; the client ignores
    the second column before it calls hasNext. *)
Theorem C42_overlay_tally_partial : forall fuel so k base adds dels diffs out,
  sorters_ok so -> 0 <= k ->
  Aggregates base out -> Forall (fun x => fst (fst x) = k) base -> StronglySorted elt base ->
  Forall (fun u => fst u = false) adds -> (dels = [] \/ exists d, dels = [(true, d)]) ->
  Forall2 (fun u d => fst d = fst u /\ Aggregates (snd u) (snd d) /\
             Forall (fun x => fst (fst x) = k) (snd u) /\ StronglySorted elt (snd u) /\
             (fst u = true -> snd u <> [] -> AggregatesFirst (snd u) (snd d))) (adds ++ dels) diffs ->
  valid_history (fun x => In x base) (adds ++ dels) ->
  (length base + hist_size (adds ++ dels) + 1 < fuel)%nat ->
  exists o o1 R g, overlay fuel so k diffs out = Some o /\
    StronglySorted elt R /\ (forall x, In x R <-> replay (fun y => In y base) (adds ++ dels) x) /\
    Yields true R o /\ ignoreSecondColumn o = Some o1 /\ is_tally R g /\ Tallies g o1.
Proof. exact overlay_tally. Qed.
Print Assumptions C42_overlay_tally_partial.

Lemma with_key_strict k l : StronglySorted plt l -> StronglySorted elt (with_key k l).
Proof.
  unfold with_key. induction 1 as [|x l Hs IH F]; cbn; constructor; auto. rewrite Forall_map.
  eapply Forall_impl; [|exact F]. unfold plt, elt. cbn. intros; lia.
Qed.
Example C42_overlay_tally_case :
  let adds := [(false, with_key 5 pairs2)] in
  let dels := [(true, with_key 5 [(1, 1); (2, 7)])] in
  let diffs := [(false, ex_row pairs2); (true, ex_cl [(1, 1); (2, 7)])] in
  Forall2 (agg_diff 5) (adds ++ dels) diffs /\
  valid_history (fun x => In x (with_key 5 pairs1)) (adds ++ dels) /\
  (do o <- overlay 20 ex_sorters 5 diffs (ex_cl pairs1); do o1 <- ignoreSecondColumn o; tdrain 10 o1) =
    Some [(5, 1, 3); (5, 2, 2); (5, 4, 1)].
Proof.
  destruct ex_ok2 as (H1 & _ & H2).
  destruct ex_ok4 as (H3 & H4 & _).
  split; [|split; [|vm_compute; reflexivity]].
  - constructor; [|constructor; [|constructor]]; cbn [fst snd].
    + split; auto. split; [eapply table_aggregates; eauto|]. split; [apply Forall_map, Forall_forall; auto|].
      split; [now apply with_key_strict|discriminate].
    + split; auto. split; [eapply table_aggregates; eauto|]. split; [apply Forall_map, Forall_forall; auto|].
      split; [now apply with_key_strict|]. intros _ _. eapply table_aggregates_first; eauto. discriminate.
  - cbn [app valid_history fst snd]. split.
    + intros x Hx Hy. cbn in Hx, Hy. destruct Hx as [<-|[<-|[<-|[<-|[]]]]];
        destruct Hy as [Hy|[Hy|[Hy|[Hy|[]]]]]; discriminate.
    + split; [|exact I]. intros x Hx. left. cbn in *. tauto.
Qed.

(** With a deletion followed by an addition the statement is false: the deleted rows of the
    value the deletion has just passed are counted.  The rows left are (1,2), (1,3) and (1,9). *)
Theorem C42_overlay_tally_refuted :
  let h := [(true, with_key 5 [(1, 1); (2, 7)]); (false, with_key 5 [(1, 9)])] in
  let diffs := [(true, ex_cl [(1, 1); (2, 7)]); (false, ex_cl [(1, 9)])] in
  Table 5 true pairs1 (ex_cl pairs1) /\ Table 5 true [(1, 1); (2, 7)] (ex_cl [(1, 1); (2, 7)]) /\
  valid_history (fun x => In x (with_key 5 pairs1)) h /\
  (forall x, In x (with_key 5 [(1, 2); (1, 3); (1, 9)]) <-> replay (fun x => In x (with_key 5 pairs1)) h x) /\
  (do o <- overlay 50 ex_sorters 5 diffs (ex_cl pairs1); drain 10 o) = Some (with_key 5 [(1, 2); (1, 3); (1, 9)]) /\
  (do o <- overlay 50 ex_sorters 5 diffs (ex_cl pairs1); do o1 <- ignoreSecondColumn o; tdrain 10 o1) = Some [(5, 1, 4)].
Proof.
  destruct ex_ok1 as (_ & H1 & _).
  destruct ex_ok4 as (_ & H2 & _).
  split; auto. split; auto. split; [|split; [|split; vm_compute; reflexivity]].
  - cbn [valid_history fst snd]. split; [intros x Hx; cbn in *; tauto|]. split; [|exact I].
    intros x [<-|[]] [Hy _]. cbn in Hy. destruct Hy as [Hy|[Hy|[Hy|[Hy|[]]]]]; discriminate.
  - intros x. unfold replay, step_set. cbn. split.
    + intros [<-|[<-|[<-|[]]]]; [left|left|right; now left]; (split; [tauto|]); intros [E|[E|[]]]; discriminate.
    + intros [[[<-|[<-|[<-|[<-|[]]]]] Hn]|[<-|[]]]; try tauto.
Qed.
Print Assumptions C42_overlay_tally_refuted.

(** The same when the client calls hasNext before it ignores the second column: rows (1,2) and
    (1,3) are left. *)
Theorem C42_polled_removal_refuted :
  (do o <- new_rm_itr 9 (ex_cl pairs1) (ex_cl [(1, 1); (2, 7)]); drain 10 o) = Some (with_key 5 [(1, 2); (1, 3)]) /\
  (do o <- new_rm_itr 9 (ex_cl pairs1) (ex_cl [(1, 1); (2, 7)]); do o1 <- ignoreSecondColumn o; tdrain 10 o1) = Some [(5, 1, 2)] /\
  (do o <- new_rm_itr 9 (ex_cl pairs1) (ex_cl [(1, 1); (2, 7)]); do (_, o0) <- hasNext o;
   do o1 <- ignoreSecondColumn o0; tdrain 10 o1) = Some [(5, 1, 3)].
Proof. split; [|split]; vm_compute; reflexivity. Qed.
Print Assumptions C42_polled_removal_refuted.

(** Deletions of rows that are not stored make the counts too small (the updater does not write
    such deletions): three rows have the value 1. *)
Theorem C42_absent_deletion_refuted :
  (do o <- new_rm_itr 9 (ex_cl pairs1) (ex_cl [(1, 8)]); drain 10 o) = Some (with_key 5 pairs1) /\
  (do o <- new_rm_itr 9 (ex_cl pairs1) (ex_cl [(1, 8)]); do o1 <- ignoreSecondColumn o; tdrain 10 o1) = Some [(5, 1, 2); (5, 2, 1)].
Proof. split; vm_compute; reflexivity. Qed.
Print Assumptions C42_absent_deletion_refuted.
