(** C82: queries with FILTERs, those on the variables of one pattern above its scans, over a database with updates. *)
From Verif Require Import FiltProps.
From Coq Require Import ZifyBool.
From Verif Require Import OpSpec OpProofs PlanProofs4 KbProofs4 KbProofs5 OpHashProofs OpHashProofs2 KbSpec TsSpec TsProps InserterProofs OpHashProps KbProps KbModel TsKbModel KbProofs.
From Verif Require Import PlanModel PlanSpec PlanProofs PlanProofs5 PlanProofs6 PlanProps PlanGenModel PlanGenProps.
From Verif Require Import SortModel SortSpec SortProps InserterModel InserterSpec QueryModel QuerySpec ItrProps DiffProofs DiffProps UpdKbModel UpdKbSpec UpdKbProps PlanUpdModel.
Local Open Scope Z_scope.
From Verif Require Import PlanUpdModel PlanUpdProps FiltModel FiltSpec SelModel SelSpec.
From Verif Require Import PlanSpec PlanProofs4 PlanProofs5.
Local Open Scope Z_scope.
From Verif Require Import PushModel PushProps.
From Verif Require Import PlanSpec PlanProofs4 PlanProofs5 PushModel.
Local Open Scope Z_scope.

(** The triples [U'] are those that are left of [U] after the history [h] of additions and removals: the rows are those of the
    solutions over [U'] that the filters keep.  The conditions on the updates are those of C79. *)
Theorem C82_pushed_updates_partial : forall U inputs pad m w fuel memory d so h us U' tl nodes p projection filters keep,
  U <> [] -> Forall (terms 39) U -> zl U < 2 ^ 31 -> prepared U inputs -> pad_ok pad -> (1 <= m)%nat ->
  kb_load fuel (m + m) inputs pad = Some d -> (forall i t f, d_files d i = Some t -> zl (t_file t f) < 2 ^ 40) ->
  std_sort comp_gt (sort_comp so) -> std_sort cscan_gt (sort_scan so) ->
  history_written h us -> valid_history (fun t => In t U) h ->
  (length U + length U + length U + list_sum (map (fun u => length (snd u)) h) + 1 < fuel)%nat ->
  NoDup U' -> (forall t, In t U' <-> replay (fun t => In t U) h t) -> dict_ok w ->
  linear nodes -> nodes <> [] -> constants_ok nodes -> 2 ^ 65 <= memory -> (4 * S (length U') ^ length nodes + 1 < fuel)%nat ->
  Planned nodes (projection ++ flat_map fvars filters) p -> complete nodes p -> aggregated p = [] -> fully p = [] ->
  (forall idx, In idx (indices p) -> kb_present d idx = true /\ ((idx < 3)%nat \/ Forall (fun u => fst u = false) h)) ->
  incl projection (vars nodes) -> incl (flat_map fvars filters) (vars nodes) -> forallb ordinary filters = true ->
  (forall f n s, In f filters -> In n nodes -> incl (fvars f) (pattern_vars n) -> solves U' [n] s -> exists z, Supported w s f /\ Truth (row_of w s) f z) ->
  (forall f s, In f filters -> solves U' nodes s -> Supported w s f /\ Truth (row_of w s) f (keep f s)) ->
  exists o outs W L, translateQuery w fuel memory (upd_scan_open fuel so d us) tl nodes filters projection p = Some (o, outs) /\
    Answers outs W L o /\
    forall S, solutions U' nodes S -> forall t, occurs outs L t = times (filter (fun s => forallb (fun f => keep f s) filters) S) projection t.
Proof.
  intros U inputs pad m w fuel memory d so h us U' tl nodes p projection filters keep H1 H2 H3 H4 H5 H6 H7 H8 H9 H10 H11 H12 H13 HN HU' D Hlin Hne Hc Hm Hf HP HC Hag Hfu HI Hproj Hfv Hord HPH HK.
  assert (HT : Forall (terms 63) U') by (rewrite Forall_forall; intros t Ht; eapply left_terms; [exact H2|exact H11|now apply HU']).
  assert (HL : (length U' < fuel)%nat).
  { assert (S (length U') <= S (length U') ^ length nodes)%nat; [|lia]. destruct nodes as [|n ns]; [congruence|]. cbn [length Nat.pow].
    pose proof (Nat.pow_nonzero (S (length U')) (length ns)). assert (S (length U') ^ length ns <> 0)%nat by (apply H; lia). nia. }
  apply C82_pushed_partial; auto; [|rewrite Hag; intros idx []|rewrite Hfu; intros idx []]. intros idx Hi. destruct (HI idx Hi) as [Hpr Hrem].
  apply (C79_serves_partial U inputs pad m fuel d so h us U'); auto. eapply planned_indices; eauto.
Qed.
Print Assumptions C82_pushed_updates_partial.

(** *** Cases: the updates of C74_case leave (1, 7, 4), (1, 7, 5), (1, 9, 3) and (5, 7, 3); 4 is "ann" and 5 is "bob". *)
Definition ex_upd_pushed (h : list (bool * list triple)) (projection : list nat) (filters : list filt) : option (list (list Z * Z)) :=
  do d <- kb_load 120 2 (ex_inputs [0; 2; 5]%nat) ex_pad;
  do (o, outs) <- translateQuery SelProps.exw 120 (2 ^ 65) (upd_scan_open 120 ex_so d (map ex_upd h)) (fun _ => None) q_merge filters projection p_spo;
  run outs 20 (o_first o) (fun _ => 0).
Example C82_pushed_updates_case :
  ex_upd_pushed ex_h [0; 1; 2]%nat [] = Some [([1; 4; 3], 1); ([1; 5; 3], 1)] /\
  ex_upd_pushed ex_h [0; 1]%nat [f_ann; f_differ] = Some [([1; 4], 1)] /\
  ex_upd_pushed ex_h [0; 1]%nat [f_differ; FNot f_ann] = Some [([1; 5], 1)].
Proof. vm_compute. repeat split. Qed.
(** The other hypotheses are those of C82_updates_hyps; the values of the variable of the first pattern: *)
Example C82_pushed_updates_hyps : forall s, solves [(1, 7, 4); (1, 7, 5); (1, 9, 3); (5, 7, 3)] [nth 0 q_merge (mkNode (Const 0) (Const 0) (Const 0))] s -> s 1%nat = 3 \/ s 1%nat = 4 \/ s 1%nat = 5.
Proof. intros s Hs. assert (H1 := Hs _ (or_introl eq_refl)). unfold instance in H1. cbn in H1. intuition congruence. Qed.
