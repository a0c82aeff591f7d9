(** C74: a loaded database to which updates were applied answers patterns. *)
From Coq Require Import ZArith List Sorting.Sorted Permutation ZifyBool.
From Verif Require Import QueryModel QuerySpec InserterModel InserterSpec InserterProps SortModel SortSpec SortProofs3 SortProps ItrModel ItrSpec ItrProps ScanProofs DiffProofs2 DiffProps
  KbModel KbSpec KbProofs8 KbProps UpdKbModel UpdKbSpec UpdKbProofs UpdKbProofs2.
Import ListNotations.
Local Open Scope Z_scope.

(** C74.  A database is loaded from the triples [U] (as in C70) and updates [us] are written for
    the history [h] of additions and removals; additions are new and removals are present
    (updates are made like that, C05).  Then the iterator for a permutation and a pattern gives
    each matching triple of the set after the history once, in the order of the
    permutation, under these conditions: if the permutation is stored, or read from the one
    with the last two columns exchanged, the bound terms have to be leading ones (C70), and if
    there are removals, it has to be one of SPO, OPS and POS, or the key is bound and no table
    was left out; if the permutation is computed from SPO, the subject is bound or the predicate
    is free, or there are no updates. *)
Theorem C74_updates_partial : forall U inputs pad m fuel d so h us,
  U <> [] -> Forall (terms 39) U -> zl U < 2 ^ 31 -> prepared U inputs -> pad_ok pad -> (1 <= m)%nat ->
  kb_load fuel (m + m) inputs pad = Some d ->
  (forall i t f, d_files d i = Some t -> zl (t_file t f) < 2 ^ 40) ->
  std_sort comp_gt (sort_comp so) -> std_sort cscan_gt (sort_scan so) ->
  history_written h us -> valid_history (fun t => In t U) h ->
  (length U + length U + length U + list_sum (map (fun u => length (snd u)) h) + 1 < fuel)%nat ->
  forall idx s p o, (idx < 6)%nat -> -1 <= s < 2 ^ 63 -> -1 <= p < 2 ^ 63 -> -1 <= o < 2 ^ 63 ->
    (kb_present d idx = true -> leading idx (s, p, o) /\ (removable inputs idx (s, p, o) \/ Forall (fun u => fst u = false) h)) ->
    (kb_present d idx = false -> 0 <= s \/ p = -1 \/ h = []) ->
    exists it l, kb_updated fuel so d us idx s p o = Some it /\ Yields false l it /\
      answers_of (replay (fun t => In t U) h) idx (s, p, o) l.
Proof.
  intros U inputs pad m fuel d so h us Hne HU Hsz HP Hpad Hm E Hfl So1 So2 HW HV Hf idx s p o Hi Hs Hp Ho Hpr1 Hpr0.
  assert (Hf3 : (length U + length U + length U < fuel)%nat) by lia. pose proof E as Eload.
  unfold kb_load in E. destruct (load_perms (seq 0 6) inputs) as [ls|] eqn:Els; [|discriminate].
  assert (Hfl' : forall i t f, (i < 6)%nat -> snd (nth i ls ([], None)) = Some t -> zl (t_file t f) < 2 ^ 40).
  { intros i t f _ Et. apply (Hfl i). clear - E Et. destruct (mg_all _ _) as [M|]; [|discriminate]. destruct (build_tc _ _); [|discriminate]. injection E as <-. exact Et. }
  destruct (load_ok U inputs pad ls HU HP Hsz Hpad Els Hfl' m fuel Hm Hf3) as (d' & E' & HD & Hpr & _ & tr & wl & Er & _).
  unfold kb_load in E'. rewrite Els in E'. rewrite E in E'. injection E' as <-. assert (Hroot : exists t, d_root d = RTree t) by eauto.
  assert (H0 : d_present d 0 = true) by (rewrite Hpr by lia; destruct HP as (H0 & _); destruct (inputs 0%nat); congruence).
  assert (Hso : sorters_ok so) by (split; auto).
  destruct (kb_present d idx) eqn:Hk.
  - destruct (Hpr1 eq_refl) as [Hl HC].
    destruct (over_present U _ _ d fuel HD Hne so h us Hso HW HV Hf Hroot idx s p o Hi Hk Hs Hp Ho Hl) as (r & l & Ek & _ & Hy & Ha).
    { destruct HC as [[HC|(g & q & Eg & Hg & Hv)]|HC]; [left; left; exact HC| |right; exact HC]. left. right. split; [rewrite Hpr by auto; now rewrite Eg|]. split; auto.
      intros l. unfold stored. rewrite Eg. unfold skipped. now rewrite Hg, Bool.andb_false_r. }
    unfold kb_updated. rewrite Ek. exists (h_itr fuel d idx r), l. auto.
  - destruct us as [|u us0] eqn:Eus.
    + inversion HW; subst. cbn [replay fold_left]. assert (Eq : kb_updated fuel so d [] idx s p o = kb_query fuel d idx s p o).
      { assert (Eo : forall i, kb_over fuel so d [] i s p o = kb_base fuel d i s p o) by (intros i; unfold kb_over; destruct (kb_base fuel d i s p o) as [[r|]|]; reflexivity).
        unfold kb_updated, kb_query. rewrite !Eo. destruct (kb_base fuel d idx s p o) as [[[it|x]|]|]; reflexivity. }
      rewrite Eq. destruct (C70_queries U inputs pad m fuel d Hne HU Hsz HP Hpad Hm Hf3 Eload Hfl idx s p o Hi Hs Hp Ho) as (it & l & A & B & C); [congruence|].
      exists it, l. split; [exact A|]. split; [exact B|exact C].
    + rewrite <- Eus in *. apply (over_absent U _ _ d fuel HD Hne so h us Hso HW HV Hf Hroot); auto.
      * destruct (Hpr0 eq_refl) as [Hx|[Hx|Hx]]; auto. subst h. inversion HW. congruence.
      * congruence.
Qed.
Print Assumptions C74_updates_partial.

(** A case: the database of C70, to which two triples are added, then one of these and two of the
    first are removed, and one of them is added again. *)
Definition ex_h : list (bool * list triple) := [(false, [(1, 7, 5); (2, 9, 3)]); (true, [(1, 7, 3); (2, 9, 3); (5, 7, 3)]); (false, [(5, 7, 3)])].
Definition ex_upd (u : bool * list triple) : UpdKbModel.upd := mkUpd (fst u) (createDiffIndex ksort (fun _ _ => (true, true)) (fun _ => []) (snd u)) (fun _ => repeat 0 8).
Definition ex_so : sorters := {| sort_comp := isort comp_gt; sort_scan := isort cscan_gt; sort_scan_ign := isort cscan_gt_ign |}.
Definition ex_updated (which : list nat) (h : list (bool * list triple)) (idx : nat) (s p o : Z) : option (list elem) :=
  do d <- ex_db which; do it <- kb_updated 30 ex_so d (map ex_upd h) idx s p o; drain 30 it.

Example C74_case :
  ex_updated [0; 2; 5]%nat ex_h 0 1 7 (-1) = Some [(1, 7, 4); (1, 7, 5)] /\
  ex_updated [0; 2; 5]%nat ex_h 0 1 7 5 = Some [(1, 7, 5)] /\
  ex_updated [0; 2; 5]%nat ex_h 0 (-1) (-1) (-1) = Some [(1, 7, 4); (1, 7, 5); (1, 9, 3); (5, 7, 3)] /\
  ex_updated [0; 2; 5]%nat ex_h 2 (-1) 7 (-1) = Some [(7, 3, 5); (7, 4, 1); (7, 5, 1)] /\
  ex_updated [0; 2; 5]%nat [(false, [(1, 7, 5); (2, 9, 3)])] 5 (-1) 9 (-1) = Some [(9, 1, 3); (9, 2, 3)] /\
  ex_updated [0; 2; 5]%nat ex_h 1 1 7 (-1) = Some [(4, 7, 1); (5, 7, 1)] /\
  ex_updated [0; 2; 5]%nat ex_h 4 (-1) (-1) 3 = Some [(3, 1, 9); (3, 5, 7)].
Proof. vm_compute. repeat split. Qed.

Example C74_hyps : history_written ex_h (map ex_upd ex_h) /\ valid_history (fun t => In t ex_U) ex_h /\
  std_sort comp_gt (sort_comp ex_so) /\ std_sort cscan_gt (sort_scan ex_so).
Proof.
  split; [|split; [|split; apply std_sort_nonvacuous]].
  - assert (HW : forall u, In u ex_h -> written (snd u) (up_ix (ex_upd u))).
    { intros u Hu. exists ksort, (fun _ _ => (true, true)), (fun _ => []). split; [apply ksort_sorts|]. split; [reflexivity|].
      destruct Hu as [<-|[<-|[<-|[]]]]; (split; [apply tid_bool; vm_compute; reflexivity|]); (split; [vm_compute; reflexivity|]);
        (intros idx Hi; assert (idx = 0 \/ idx = 1 \/ idx = 2 \/ idx = 3 \/ idx = 4 \/ idx = 5) as HC by (unfold is_perm in Hi; lia);
         destruct HC as [-> |[-> |[-> |[-> |[-> | ->]]]]]; vm_compute; reflexivity). }
    repeat constructor; try (apply HW; cbn; tauto); cbn; lia.
  - cbn [valid_history ex_h fst snd]. repeat split; intros x Hx; unfold step_set; cbn in *;
      repeat (destruct Hx as [<-|Hx]; [intuition congruence|]); contradiction.
Qed.

(** A removal makes a query fail in PSO, OSP or SOP if the permutation is not stored (or the table of
    the key was left out): RmItr::hasNext asks each triple that it keeps for its count
    (src/trident/iterators/rmitr.cpp 56-105), and ArrayItr::getCount, which
    delivers the exchanged table, throws (src/trident/iterators/arrayitr.cpp 70-73). *)
Theorem C74_removal_refuted : exists which h, valid_history (fun t => In t ex_U) h /\
  ex_updated which [] 5 (-1) 7 (-1) = Some [(7, 1, 3); (7, 1, 4); (7, 5, 3)] /\ ex_updated which h 5 (-1) 7 (-1) = None /\
  ex_updated which h 5 (-1) (-1) (-1) = None /\ ex_updated which h 2 (-1) 7 (-1) = Some [(7, 3, 5); (7, 4, 1)].
Proof.
  exists [0; 2]%nat, [(true, [(1, 7, 3)])]. split.
  - cbn [valid_history fst snd]. repeat split; intros x Hx; unfold step_set; cbn in *; repeat (destruct Hx as [<-|Hx]; [intuition congruence|]); contradiction.
  - vm_compute. repeat split.
Qed.
Print Assumptions C74_removal_refuted.

(** A permutation that is computed from SPO, with a bound predicate and a free subject: once there
    is an update, ReOrderItr calls gotoKey on an iterator that does not have it
    (src/trident/iterators/reorderitr.cpp 52, compositescanitr.cpp 26-30, pairitr.h 98-101). *)
Theorem C74_computed_refuted : exists which h, valid_history (fun t => In t ex_U) h /\
  ex_updated which [] 4 (-1) 7 3 = Some [(3, 1, 7); (3, 5, 7)] /\ ex_updated which h 4 (-1) 7 3 = None.
Proof.
  exists [0; 2; 5]%nat, [(false, [(2, 9, 3)])]. split.
  - cbn [valid_history fst snd]. repeat split; intros x Hx; unfold step_set; cbn in *; repeat (destruct Hx as [<-|Hx]; [intuition congruence|]); contradiction.
  - vm_compute. repeat split.
Qed.
Print Assumptions C74_computed_refuted.
