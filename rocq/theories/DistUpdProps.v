(** C83 and C84 over a database with updates. *)
From Verif Require Import FiltProps.
From Coq Require Import ZifyBool.
From Verif Require Import OpSpec OpProofs PlanProofs4 KbProofs4 KbProofs5 OpHashProofs OpHashProofs2 KbSpec TsSpec TsProps InserterProofs OpHashProps KbProps KbModel TsKbModel KbProofs.
From Verif Require Import PlanModel PlanSpec PlanProofs PlanProofs5 PlanProofs6 PlanProps PlanGenModel PlanGenProps.
From Verif Require Import SortModel SortSpec SortProps InserterModel InserterSpec QueryModel QuerySpec ItrProps DiffProofs DiffProps UpdKbModel UpdKbSpec UpdKbProps PlanUpdModel.
Local Open Scope Z_scope.
From Verif Require Import PlanUpdModel PlanUpdProps FiltModel FiltSpec SelModel SelSpec.
From Verif Require Import PlanSpec PlanProofs4 PlanProofs5.
Local Open Scope Z_scope.
From Verif Require Import PushModel PushProps PushUpdProps OpModel DistModel DistProps PrintProps.
From Verif Require Import PlanSpec PlanProofs4 PlanProofs5 PushModel.
Local Open Scope Z_scope.

(** C83 over the triples [U'] that are left of [U] after the history [h].  The conditions on the updates are those of C79. *)
Theorem C83_distinct_updates_partial : forall enum U inputs pad m w fuel memory d so h us U' tl nodes p projection order filters keep,
  (forall gs, Permutation (enum gs) (seq 0 (length gs))) -> incl order projection -> U <> [] -> Forall (terms 39) U -> zl U < 2 ^ 31 -> prepared U inputs -> pad_ok pad -> (1 <= m)%nat ->
  kb_load fuel (m + m) inputs pad = Some d -> (forall i t f, d_files d i = Some t -> zl (t_file t f) < 2 ^ 40) ->
  std_sort comp_gt (sort_comp so) -> std_sort cscan_gt (sort_scan so) ->
  history_written h us -> valid_history (fun t => In t U) h ->
  (length U + length U + length U + list_sum (map (fun u => length (snd u)) h) + 1 < fuel)%nat ->
  NoDup U' -> (forall t, In t U' <-> replay (fun t => In t U) h t) -> dict_ok w ->
  linear nodes -> nodes <> [] -> constants_ok nodes -> 2 ^ 65 <= memory -> (4 * S (length U') ^ length nodes + 1 < fuel)%nat ->
  Planned nodes (projection ++ flat_map fvars filters) p -> complete nodes p -> aggregated p = [] -> fully p = [] ->
  (forall idx, In idx (indices p) -> kb_present d idx = true /\ ((idx < 3)%nat \/ Forall (fun u => fst u = false) h)) ->
  incl projection (vars nodes) -> incl (flat_map fvars filters) (vars nodes) -> forallb ordinary filters = true ->
  (forall f n s, In f filters -> In n nodes -> incl (fvars f) (pattern_vars n) -> solves U' [n] s -> exists z, Supported w s f /\ Truth (row_of w s) f z) ->
  (forall f s, In f filters -> solves U' nodes s -> Supported w s f /\ Truth (row_of w s) f (keep f s)) ->
  exists o outs rows, translateDistinct enum w fuel memory (upd_scan_open fuel so d us) tl nodes filters projection order p = Some (o, outs) /\
    NoDup rows /\
    (forall S, solutions U' nodes S -> forall t, In t rows <-> In t (map (fun s => map s projection) (filter (fun s => forallb (fun f => keep f s) filters) S))) /\
    forall limit g, 1 <= limit -> rp_distinct fuel limit 0 outs o g = Some (firstn (Z.to_nat limit) rows).
Proof.
  intros enum U inputs pad m w fuel memory d so h us U' tl nodes p projection order filters keep Hen Hoi H1 H2 H3 H4 H5 H6 H7 H8 H9 H10 H11 H12 H13 HN HU' D Hlin Hne Hc Hm Hf HP HC Hag Hfu HI Hproj Hfv Hord HPH HK.
  assert (HT : Forall (terms 63) U') by (rewrite Forall_forall; intros t Ht; eapply left_terms; [exact H2|exact H11|now apply HU']).
  assert (HL : (length U' < fuel)%nat).
  { assert (S (length U') <= S (length U') ^ length nodes)%nat; [|lia]. destruct nodes as [|n ns]; [congruence|]. cbn [length Nat.pow].
    pose proof (Nat.pow_nonzero (S (length U')) (length ns)). assert (S (length U') ^ length ns <> 0)%nat by (apply H; lia). nia. }
  apply C83_distinct_partial; auto; [|rewrite Hag; intros idx []|rewrite Hfu; intros idx []]. intros idx Hi. destruct (HI idx Hi) as [Hpr Hrem].
  apply (C79_serves_partial U inputs pad m fuel d so h us U'); auto. eapply planned_indices; eauto.
Qed.
Print Assumptions C83_distinct_updates_partial.

(** C84 over the triples that are left. *)
Theorem C84_printed_updates_partial : forall U inputs pad m w fuel memory d so h us U' tl nodes p projection filters keep,
  U <> [] -> Forall (terms 39) U -> zl U < 2 ^ 31 -> prepared U inputs -> pad_ok pad -> (1 <= m)%nat ->
  kb_load fuel (m + m) inputs pad = Some d -> (forall i t f, d_files d i = Some t -> zl (t_file t f) < 2 ^ 40) ->
  std_sort comp_gt (sort_comp so) -> std_sort cscan_gt (sort_scan so) ->
  history_written h us -> valid_history (fun t => In t U) h ->
  (length U + length U + length U + list_sum (map (fun u => length (snd u)) h) + 1 < fuel)%nat ->
  NoDup U' -> (forall t, In t U' <-> replay (fun t => In t U) h t) -> dict_ok w ->
  linear nodes -> nodes <> [] -> constants_ok nodes -> 2 ^ 65 <= memory -> (4 * S (length U') ^ length nodes + 1 < fuel)%nat ->
  Planned nodes (projection ++ flat_map fvars filters) p -> complete nodes p -> aggregated p = [] -> fully p = [] ->
  (forall idx, In idx (indices p) -> kb_present d idx = true /\ ((idx < 3)%nat \/ Forall (fun u => fst u = false) h)) ->
  incl projection (vars nodes) -> incl (flat_map fvars filters) (vars nodes) -> forallb ordinary filters = true ->
  (forall f n s, In f filters -> In n nodes -> incl (fvars f) (pattern_vars n) -> solves U' [n] s -> exists z, Supported w s f /\ Truth (row_of w s) f z) ->
  (forall f s, In f filters -> solves U' nodes s -> Supported w s f /\ Truth (row_of w s) f (keep f s)) ->
  exists o outs rows, translateQuery w fuel memory (upd_scan_open fuel so d us) tl nodes filters projection p = Some (o, outs) /\
    (forall S, solutions U' nodes S -> Permutation rows (map (fun s => map s projection) (filter (fun s => forallb (fun f => keep f s) filters) S))) /\
    forall limit offset g, 1 <= limit -> 0 <= offset ->
      rp_text fuel limit offset outs o g = Some (firstn (Z.to_nat limit) (skipn (Z.to_nat offset) rows)) /\
      rp_silent fuel limit offset o g = Some (Z.of_nat (length (firstn (Z.to_nat limit) (skipn (Z.to_nat offset) rows)))).
Proof.
  intros U inputs pad m w fuel memory d so h us U' tl nodes p projection filters keep H1 H2 H3 H4 H5 H6 H7 H8 H9 H10 H11 H12 H13 HN HU' D Hlin Hne Hc Hm Hf HP HC Hag Hfu HI Hproj Hfv Hord HPH HK.
  assert (HT : Forall (terms 63) U') by (rewrite Forall_forall; intros t Ht; eapply left_terms; [exact H2|exact H11|now apply HU']).
  assert (HL : (length U' < fuel)%nat).
  { assert (S (length U') <= S (length U') ^ length nodes)%nat; [|lia]. destruct nodes as [|n ns]; [congruence|]. cbn [length Nat.pow].
    pose proof (Nat.pow_nonzero (S (length U')) (length ns)). assert (S (length U') ^ length ns <> 0)%nat by (apply H; lia). nia. }
  apply C84_printed_partial; auto; [|rewrite Hag; intros idx []|rewrite Hfu; intros idx []]. intros idx Hi. destruct (HI idx Hi) as [Hpr Hrem].
  apply (C79_serves_partial U inputs pad m fuel d so h us U'); auto. eapply planned_indices; eauto.
Qed.
Print Assumptions C84_printed_updates_partial.

(** *** Cases: as in PushUpdProps.v. *)
Definition ex_upd_distinct (projection : list nat) (filters : list filt) : option (list (list Z)) :=
  do d <- kb_load 120 2 (ex_inputs [0; 2; 5]%nat) ex_pad;
  do (o, outs) <- translateDistinct (fun gs => seq 0 (length gs)) SelProps.exw 120 (2 ^ 65) (upd_scan_open 120 ex_so d (map ex_upd ex_h)) (fun _ => None) q_merge filters projection [] p_spo;
  rp_distinct 120 9 0 outs o (fun _ => 0).
Definition ex_upd_printed (limit offset : Z) (projection : list nat) (filters : list filt) : option (list (list Z)) :=
  do d <- kb_load 120 2 (ex_inputs [0; 2; 5]%nat) ex_pad;
  do (o, outs) <- translateQuery SelProps.exw 120 (2 ^ 65) (upd_scan_open 120 ex_so d (map ex_upd ex_h)) (fun _ => None) q_merge filters projection p_spo;
  rp_text 120 limit offset outs o (fun _ => 0).
Example C83_updates_case : ex_upd_distinct [0]%nat [] = Some [[1]] /\ ex_upd_distinct [1]%nat [] = Some [[4]; [5]] /\ ex_upd_distinct [1]%nat [f_ann] = Some [[4]].
Proof. vm_compute. repeat split. Qed.
Example C84_updates_case : ex_upd_printed 9 0 [0]%nat [] = Some [[1]; [1]] /\ ex_upd_printed 1 1 [1]%nat [] = Some [[5]] /\ ex_upd_printed 9 0 [1]%nat [f_ann] = Some [[4]].
Proof. vm_compute. repeat split. Qed.
