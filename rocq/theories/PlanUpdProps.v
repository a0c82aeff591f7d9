(** C79: queries over a database with updates. *)
From Coq Require Import ZifyBool.
From Verif Require Import OpSpec OpProofs PlanProofs4 KbProofs4 KbProofs5 OpHashProofs OpHashProofs2 KbSpec TsSpec TsProps InserterProofs OpHashProps KbProps KbModel TsKbModel KbProofs.
From Verif Require Import PlanModel PlanSpec PlanProofs PlanProofs5 PlanProofs6 PlanProps PlanGenModel PlanGenProps.
From Verif Require Import SortModel SortSpec SortProps InserterModel InserterSpec QueryModel QuerySpec ItrProps DiffProofs DiffProps UpdKbModel UpdKbSpec UpdKbProps PlanUpdModel.
Local Open Scope Z_scope.

(** An iterator that is only asked for the next row. *)
Lemma yields_seek : forall l o, Yields false l o -> Forall (fun e => 0 <= c2 e) l -> Seek 0 l o.
Proof.
  intros l o HY HF. exists (fun c l o => Yields false l o /\ Forall (fun e => 0 <= c2 e) l /\ (forall x, c = Some x -> 0 <= c2 x)). split; [|split; [exact HY|split; [exact HF|discriminate]]].
  clear. intros c l o (HY & HF & HC). split.
  - assert (P0 : polls o o) by constructor. destruct l as [|x t].
    + destruct (HY o P0) as (o1 & E & _). exists o1. split; [exact E|]. split; [|exact Logic.I]. split; [|split; [constructor|discriminate]].
      intros o' Po. cbn. destruct (HY o') as (o2 & E2 & _); [|exists o2; split; [exact E2|exact Logic.I]]. clear - Po E.
      induction Po as [|a b c Po IH Ea]; [eapply polls_step; [constructor|exact E]|eapply polls_step; [exact IH|exact Ea]].
    + destruct (HY o P0) as (o1 & E & o2 & En & Ec & _ & HY2). exists o1. split; [exact E|]. inversion HF as [|? ? Hx Ht]; subst. split.
      * split; [|split; [constructor; assumption|discriminate]].
        intros o' Po. apply HY. clear - Po E. induction Po as [|a b c Po IH Ea]; [eapply polls_step; [constructor|exact E]|eapply polls_step; [exact IH|exact Ea]].
      * exists o2. split; [exact En|]. split; [reflexivity|]. split; [exact HY2|]. split; [exact Ht|]. intros y Hy. injection Hy as <-. exact Hx.
  - intros x a b Ex Ha Hb Hl. specialize (HC x Ex). lia.
Qed.

(** The terms of the triples that are left. *)
Lemma left_terms U h us : Forall (terms 39) U -> history_written h us -> forall t, replay (fun t => In t U) h t -> terms 63 t.
Proof.
  intros HU HW. assert (G : forall h us, history_written h us -> forall S : triple -> Prop, (forall t, S t -> terms 63 t) -> forall t, replay S h t -> terms 63 t).
  { clear. intros h us HW. induction HW as [|u x h us (_ & (srt & orc & files & _ & _ & HT & _) & _) _ IH]; intros S HS t Ht; cbn [replay fold_left] in Ht; [auto|].
    apply (IH (step_set S u)); [|exact Ht]. intros y Hy. unfold step_set in Hy. destruct u as [del l0]. cbn [fst snd] in *. destruct del; [apply HS; tauto|]. destruct Hy as [Hy|Hy]; [auto|].
    rewrite Forall_forall in HT. specialize (HT y Hy). destruct y as [[a b] c]. cbn in HT |- *. unfold DiffProofs.id32 in HT. lia. }
  apply (G h us HW). intros t Ht. rewrite Forall_forall in HU. specialize (HU t Ht). destruct t as [[a b] c]. cbn in HU |- *. lia.
Qed.

(** C79.  A database is loaded from the triples [U], and updates are written for the history [h] of
    additions and removals (C74).  Scans of SPO, OPS and POS, and scans of all indices if there are additions only,
    are served over the triples [U'] that are left. *)
Theorem C79_serves_partial : forall U inputs pad m fuel d so h us U' idx,
  U <> [] -> Forall (terms 39) U -> zl U < 2 ^ 31 -> prepared U inputs -> pad_ok pad -> (1 <= m)%nat ->
  kb_load fuel (m + m) inputs pad = Some d ->
  (forall i t f, d_files d i = Some t -> zl (t_file t f) < 2 ^ 40) ->
  std_sort comp_gt (sort_comp so) -> std_sort cscan_gt (sort_scan so) ->
  history_written h us -> valid_history (fun t => In t U) h ->
  (length U + length U + length U + list_sum (map (fun u => length (snd u)) h) + 1 < fuel)%nat ->
  (forall t, In t U' <-> replay (fun t => In t U) h t) -> (length U' < fuel)%nat ->
  (idx < 6)%nat -> kb_present d idx = true -> (idx < 3)%nat \/ Forall (fun u => fst u = false) h ->
  serves U' fuel (upd_scan_open fuel so d us) idx.
Proof.
  intros U inputs pad m fuel d so h us U' idx H1 H2 H3 H4 H5 H6 H7 H8 H9 H10 H11 H12 H13 HU' HL Hi Hpr Hrem b1 b2 b3 f (F1 & F2 & F3). unfold int64 in F1, F2, F3.
  assert (HT : Forall (terms 63) U') by (rewrite Forall_forall; intros t Ht; eapply left_terms; [exact H2|exact H11|now apply HU']).
  set (a := if b1 then c1 f else -1). set (b := if b1 && b2 then c2 f else -1). set (c := if b1 && b2 && b3 then c3 f else -1).
  assert (HQ : forall s p o, -1 <= s < 2 ^ 63 -> -1 <= p < 2 ^ 63 -> -1 <= o < 2 ^ 63 -> leading idx (s, p, o) ->
    exists it l, kb_updated fuel so d us idx s p o = Some it /\ Yields false l it /\ answers_of (replay (fun t => In t U) h) idx (s, p, o) l).
  { intros s p o A B C Hl. apply (C74_updates_partial U inputs pad m fuel d so h us H1 H2 H3 H4 H5 H6 H7 H8 H9 H10 H11 H12 H13 idx s p o Hi A B C).
    - intros _. split; [exact Hl|]. destruct Hrem; [left; left; exact H|right; exact H].
    - congruence. }
  destruct (view_args idx (-1) (-1) (-1) Hi) as (s0 & p0 & o0 & Ea0 & Ev0 & HP0).
  destruct (HP0 (fun x => -1 <= x < 2 ^ 63)) as (V1 & V2 & V3); try lia.
  destruct (HQ s0 p0 o0 V1 V2 V3) as (_ & L & _ & _ & HSL & HL'); [unfold leading; rewrite Ev0; lia|]. clear V1 V2 V3.
  assert (Epat : (s0, p0, o0) = (-1, -1, -1)) by (destruct (HP0 (fun x => x = -1)) as (-> & -> & ->); reflexivity). rewrite Epat in HL'.
  assert (HIL : forall x, In x L <-> exists t, In t U' /\ view (Z.of_nat idx) t = x).
  { intros x. rewrite HL'. split.
    - intros (t & Ht & _ & Ex). exists t. split; [now apply HU'|exact Ex].
    - intros (t & Ht & Ex). exists t. split; [now apply HU'|]. split; [|exact Ex]. intros i _. left. destruct i as [|[|[|i]]]; cbn; lia. }
  exists L. split.
  { split; [exact HSL|]. intros x. rewrite HIL. split; [intros (t & Ht & Ex); exists t; split; [exact Ht|split; [|exact Ex]]|intros (t & Ht & _ & Ex); eauto].
    intros i _. left. destruct i as [|[|[|i]]]; cbn; lia. }
  destruct (view_args idx a b c Hi) as (s & p & o & Ea & Ev & HPs).
  destruct (HPs (fun x => -1 <= x < 2 ^ 63)) as (V1 & V2 & V3); try (unfold a, b, c; destruct b1, b2, b3; cbn [andb]; lia).
  destruct (HQ s p o V1 V2 V3) as (it & l & Eit & HY & HSl & Hl); [unfold leading; rewrite Ev; unfold a, b, c; destruct b1, b2, b3; cbn [andb]; lia|].
  assert (HM : forall t, matches (s, p, o) t <-> (a < 0 \/ a = c1 (view (Z.of_nat idx) t)) /\ (b < 0 \/ b = c2 (view (Z.of_nat idx) t)) /\ (c < 0 \/ c = c3 (view (Z.of_nat idx) t))).
  { clear - Ev Hi. intros [[x y] z]. unfold matches, matches1. destruct idx as [|[|[|[|[|[|i]]]]]]; [| | | | | |exfalso; lia]; cbn in Ev; injection Ev as <- <- <-; cbn; unfold c1, c2, c3; cbn [fst snd];
    (split; [intros H; pose proof (H 0%nat ltac:(lia)); pose proof (H 1%nat ltac:(lia)); pose proof (H 2%nat ltac:(lia)); cbn in *; lia|intros (A & B & C) [|[|[|i']]] Hi'; cbn; lia]). }
  assert (Hrow : forall t, In t U' -> int64_row (view (Z.of_nat idx) t)).
  { intros t Ht. rewrite Forall_forall in HT. specialize (HT t Ht). clear - HT Hi. destruct t as [[x y] z]. cbn in HT. unfold int64_row, int64, c1, c2, c3. destruct idx as [|[|[|[|[|[|i]]]]]]; try lia; cbn; lia. }
  assert (HIl : forall x, In x l <-> In x L /\ (b1 = true -> c1 x = c1 f) /\ (b1 = true -> b2 = true -> c2 x = c2 f) /\ (b1 = true -> b2 = true -> b3 = true -> c3 x = c3 f)).
  { intros x. rewrite Hl, HIL. split.
    - intros (t & Ht & Hm & Ex). apply HU' in Ht. split; [eauto|]. apply HM in Hm. rewrite Ex in Hm. pose proof (Hrow t Ht) as (R1 & R2 & R3). rewrite Ex in R1, R2, R3. unfold int64 in *.
      unfold a, b, c in Hm. clear - Hm R1 R2 R3 F1 F2 F3. destruct b1, b2, b3; cbn [andb] in Hm; repeat split; intros; try discriminate; lia.
    - intros ((t & Ht & Ex) & A & B & C). exists t. split; [now apply HU'|]. split; [|exact Ex]. apply HM. rewrite Ex. unfold a, b, c. clear - A B C F1 F2 F3. destruct b1, b2, b3; cbn [andb]; repeat split; intuition lia. }
  assert (Hll : (length l < fuel)%nat).
  { apply (Nat.le_lt_trans _ (length (map (view (Z.of_nat idx)) U'))); [|rewrite map_length; exact HL]. apply NoDup_incl_length.
    - eapply sorted_nodup; exact HSl.
    - intros x Hx. apply HIl in Hx. destruct Hx as [Hx _]. apply HIL in Hx. destruct Hx as (t & Ht & <-). now apply in_map. }
  assert (HFl : Forall int64_row l).
  { rewrite Forall_forall. intros x Hx. apply HIl in Hx. destruct Hx as [Hx _]. apply HIL in Hx. destruct Hx as (t & Ht & <-). auto. }
  assert (HS : Seek 0 l it). { apply yields_seek; [exact HY|]. eapply Forall_impl; [|exact HFl]. intros e (_ & H & _). unfold int64 in H. lia. }
  assert (EL : filter (agrees b1 b2 b3 f) l = filter (agrees b1 b2 b3 f) L).
  { apply tlt_eq; [apply filter_ss; exact HSl|apply filter_ss; exact HSL|]. intros x. rewrite !filter_In, HIl. split; [tauto|]. intros [Hx HA]. split; [|exact HA]. split; [exact Hx|].
    unfold agrees in HA. clear - HA. destruct b1, b2, b3; cbn [negb orb andb] in HA; repeat split; intros; try discriminate; lia. }
  rewrite <- EL. apply (C73_no_hints 0 l it b1 b2 b3 f fuel fuel 0 (upd_scan_open fuel so d us idx)); auto; [lia|intros e He; apply HIl in He; tauto|].
  unfold upd_scan_open. cbv beta zeta. assert (T : forall x, 0 <= x < 2 ^ 63 -> to_i64 x = x) by (intros x Hx; unfold to_i64; destruct (Z.ltb_spec x (2 ^ 63)); lia).
  replace (match (if b1 then Some (c1 f) else None) with Some x => to_i64 x | None => -1 end) with a by (unfold a; destruct b1; rewrite ?T; auto).
  replace (match (if b1 && b2 then Some (c2 f) else None) with Some x => to_i64 x | None => -1 end) with b by (unfold b; destruct (b1 && b2); rewrite ?T; auto).
  replace (match (if b1 && b2 && b3 then Some (c3 f) else None) with Some x => to_i64 x | None => -1 end) with c by (unfold c; destruct (b1 && b2 && b3); rewrite ?T; auto).
  rewrite Ea. exact Eit.
Qed.
Print Assumptions C79_serves_partial.

(** C79.  Queries: the answer of a query over the database with updates, by any plan that can be built for the
    patterns, are the solutions over the triples that are left. *)
Theorem C79_query_partial : forall U inputs pad m w fuel memory d so h us U' tl nodes p projection,
  U <> [] -> Forall (terms 39) U -> zl U < 2 ^ 31 -> prepared U inputs -> pad_ok pad -> (1 <= m)%nat ->
  kb_load fuel (m + m) inputs pad = Some d -> (forall i t f, d_files d i = Some t -> zl (t_file t f) < 2 ^ 40) ->
  std_sort comp_gt (sort_comp so) -> std_sort cscan_gt (sort_scan so) ->
  history_written h us -> valid_history (fun t => In t U) h ->
  (length U + length U + length U + list_sum (map (fun u => length (snd u)) h) + 1 < fuel)%nat ->
  NoDup U' -> (forall t, In t U' <-> replay (fun t => In t U) h t) ->
  linear nodes -> nodes <> [] -> constants_ok nodes -> 2 ^ 65 <= memory -> (4 * S (length U') ^ length nodes + 1 < fuel)%nat ->
  Planned nodes projection p -> complete nodes p -> aggregated p = [] -> fully p = [] -> incl projection (vars nodes) ->
  (forall idx, In idx (indices p) -> kb_present d idx = true /\ ((idx < 3)%nat \/ Forall (fun u => fst u = false) h)) ->
  exists o outs W L, translateIntern w fuel memory (upd_scan_open fuel so d us) tl nodes projection p = Some (o, outs) /\
    Answers outs W L o /\
    forall S, solutions U' nodes S -> forall t, occurs outs L t = times S projection t.
Proof.
  intros U inputs pad m w fuel memory d so h us U' tl nodes p projection H1 H2 H3 H4 H5 H6 H7 H8 H9 H10 H11 H12 H13 HN HU' Hlin Hne Hc Hm Hf HP HC Hag Hfu Hproj HI.
  assert (HT : Forall (terms 63) U') by (rewrite Forall_forall; intros t Ht; eapply left_terms; [exact H2|exact H11|now apply HU']).
  assert (HL : (length U' < fuel)%nat).
  { assert (S (length U') <= S (length U') ^ length nodes)%nat; [|lia]. destruct nodes as [|n ns]; [congruence|]. cbn [length Nat.pow].
    pose proof (Nat.pow_nonzero (S (length U')) (length ns)). assert (S (length U') ^ length ns <> 0)%nat by (apply H; lia). nia. }
  apply C76_plan_partial; auto; [|rewrite Hag; intros idx []|rewrite Hfu; intros idx []]. intros idx Hi. destruct (HI idx Hi) as [Hpr Hrem].
  apply (C79_serves_partial U inputs pad m fuel d so h us U'); auto. eapply planned_indices; eauto.
Qed.
Print Assumptions C79_query_partial.

(** The triples that are left are finitely many, so that the statement is about all histories. *)
Theorem C79_left : forall (U : list triple) h, exists U', NoDup U' /\ forall t, In t U' <-> replay (fun t => In t U) h t.
Proof.
  assert (D : forall x y : triple, {x = y} + {x <> y}) by (repeat decide equality).
  assert (G : forall h (S : triple -> Prop) l, (forall t, S t <-> In t l) -> exists l', forall t, In t l' <-> replay S h t).
  { induction h as [|[b l0] h IH]; intros S l HS; [exists l; cbn; intros t; now rewrite HS|]. cbn [replay fold_left].
    destruct b.
    - apply (IH _ (filter (fun x => if in_dec D x l0 then false else true) l)). intros t. unfold step_set. cbn [fst snd]. rewrite filter_In, HS. destruct (in_dec D t l0); intuition discriminate.
    - apply (IH _ (l ++ l0)). intros t. unfold step_set. cbn [fst snd]. rewrite in_app_iff, HS. tauto. }
  intros U h. destruct (G h (fun t => In t U) U (fun t => iff_refl _)) as (l & Hl). exists (nodup D l). split; [apply NoDup_nodup|]. intros t. now rewrite nodup_In.
Qed.
Print Assumptions C79_left.

(** The plan that the generator chooses, whichever it is, if there are additions only. *)
Theorem C79_answer_partial : forall le ge better negative U inputs pad m w fuel memory d so h us U' tl nodes projection,
  U <> [] -> Forall (terms 39) U -> zl U < 2 ^ 31 -> prepared U inputs -> pad_ok pad -> (1 <= m)%nat ->
  kb_load fuel (m + m) inputs pad = Some d -> (forall i t f, d_files d i = Some t -> zl (t_file t f) < 2 ^ 40) ->
  (forall idx, (idx < 6)%nat -> kb_present d idx = true) ->
  std_sort comp_gt (sort_comp so) -> std_sort cscan_gt (sort_scan so) ->
  history_written h us -> valid_history (fun t => In t U) h -> Forall (fun u => fst u = false) h ->
  (length U + length U + length U + list_sum (map (fun u => length (snd u)) h) + 1 < fuel)%nat ->
  NoDup U' -> (forall t, In t U' <-> replay (fun t => In t U) h t) ->
  (forall i j, negative i j = false) -> (0 < length nodes <= 64)%nat -> all_used nodes projection -> incl projection (vars nodes) ->
  linear nodes -> constants_ok nodes -> 2 ^ 65 <= memory -> (4 * S (length U') ^ length nodes + 1 < fuel)%nat ->
  exists p o outs W L, translate le ge better negative nodes projection = Some p /\
    translateIntern w fuel memory (upd_scan_open fuel so d us) tl nodes projection p = Some (o, outs) /\
    Answers outs W L o /\
    forall S, solutions U' nodes S -> forall t, occurs outs L t = times S projection t.
Proof.
  intros le ge better negative U inputs pad m w fuel memory d so h us U' tl nodes projection H1 H2 H3 H4 H5 H6 H7 H8 Hix H9 H10 H11 H12 Hadd H13 HN HU' Hn Hl Hu Hproj Hlin Hc Hm Hf.
  destruct (C77_generated le ge better negative nodes projection Hn Hl (one_constant _ _ (all_one _ _ Hu)) (or_introl (all_one _ _ Hu))) as (p & HT & HC & HP). exists p.
  destruct (C79_query_partial U inputs pad m w fuel memory d so h us U' tl nodes p projection) as (o & outs & W & L & E & HA & HO); auto.
  - destruct nodes; [cbn in Hl; lia|discriminate].
  - eapply used_aggregated; eauto.
  - eapply used_aggregated; eauto.
  - intros idx Hi. split; [|right; exact Hadd]. apply Hix. eapply planned_indices; eauto.
  - exists o, outs, W, L. auto.
Qed.
Print Assumptions C79_answer_partial.

(** *** Cases: the updates of C74_case leave (1, 7, 4), (1, 7, 5), (1, 9, 3) and (5, 7, 3). *)
Definition ex_upd_run (which : list nat) (h : list (bool * list triple)) (nodes : list node) (projection : list nat) (p : plan) : option (list (list Z * Z)) :=
  do d <- kb_load 120 2 (ex_inputs which) ex_pad;
  do (o, outs) <- translateIntern (mkWorld (fun _ => None) (fun _ => None) (fun _ => ""%string) (fun _ => QArith_base.Qmake 0 1) (fun _ => 0)) 120 (2 ^ 65) (upd_scan_open 120 ex_so d (map ex_upd h)) (fun _ => None) nodes projection p;
  run outs 20 (o_first o) (fun _ => 0).
Definition p_spo : plan := MergeJoin 0 (IndexScan false 0 0) (IndexScan false 0 1).
Definition ex_add : list (bool * list triple) := [(false, [(1, 7, 5); (2, 9, 3)])].
Example C79_case :
  ex_upd_run [0; 2; 5]%nat ex_h q_merge [0; 1; 2]%nat p_spo = Some [([1; 4; 3], 1); ([1; 5; 3], 1)] /\
  ex_upd_run [0; 2; 5]%nat ex_h q_cart [0; 2]%nat p_cart = Some [([5; 3], 1)] /\
  ex_upd_run [0; 2; 5]%nat ex_add q_merge [0; 1; 2]%nat p_merge = Some [([1; 3; 3], 1); ([1; 4; 3], 1); ([1; 5; 3], 1)].
Proof. vm_compute. repeat split. Qed.
Example C79_hyps : (forall t, In t [(1, 7, 4); (1, 7, 5); (1, 9, 3); (5, 7, 3)] <-> replay (fun t => In t ex_U) ex_h t) /\
  Planned q_merge [0; 1; 2]%nat p_spo /\ complete q_merge p_spo /\ (4 * S 4 ^ length q_merge + 1 < 120)%nat /\
  Forall (fun u => fst u = false) ex_add /\ valid_history (fun t => In t ex_U) ex_add.
Proof.
  split; [|split; [|split; [|split; [|split]]]].
  - intros t. unfold replay, ex_h, step_set. cbn [fold_left fst snd In ex_U]. destruct t as [[x y] z]. split.
    + intros [E|[E|[E|[E|[]]]]]; injection E as <- <- <-; intuition (try discriminate; auto).
    + intuition congruence.
  - apply P_merge; [apply P_scan; cbn; lia|apply P_scan; cbn; lia|reflexivity|reflexivity|reflexivity|reflexivity].
  - apply Permutation.Permutation_refl.
  - vm_compute. repeat constructor.
  - repeat constructor.
  - cbn [valid_history ex_add fst snd]. repeat split; intros x Hx; unfold step_set; cbn in *; repeat (destruct Hx as [<-|Hx]; [intuition congruence|]); contradiction.
Qed.

(** *** What does not hold: after a removal, a query that the generator answers by a scan of PSO fails as a
    whole if PSO is not stored but read from POS (C74_removal_refuted). *)
Theorem C79_removal_refuted : exists le ge better nodes projection p h,
  translate le ge better (fun _ _ => false) nodes projection = Some p /\ valid_history (fun t => In t ex_U) h /\
  ex_upd_run [0; 2]%nat [] nodes projection p = Some [([1; 3], 1); ([1; 4], 1); ([5; 3], 1)] /\ ex_upd_run [0; 2]%nat h nodes projection p = None.
Proof.
  set (c := fun p => match p with IndexScan u 5 _ => 0 | _ => 1 end).
  exists (fun p q => c p <=? c q), (fun p q => c q <=? c p), (fun p q => c p <? c q), [mkNode (Var 0) (Const 7) (Var 1)], [0; 1]%nat.
  eexists. exists [(true, [(1, 7, 4)])]. split; [vm_compute; reflexivity|]. split; [|vm_compute; split; reflexivity].
  cbn [valid_history fst snd]. repeat split; intros x Hx; unfold step_set; cbn in *; repeat (destruct Hx as [<-|Hx]; [intuition congruence|]); contradiction.
Qed.
Print Assumptions C79_removal_refuted.
