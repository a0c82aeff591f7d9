(** Theorems about query plans: from a graph pattern to its solutions. *)
From Coq Require Import ZifyBool.
From Verif Require Import FullModel.
From Verif Require FullProps.
From Verif Require Import OpSpec OpProofs OpHashProofs OpHashProofs2 KbSpec TsSpec TsProps InserterProofs OpHashProps KbProps KbModel TsKbModel KbProofs AggProps TallySpec.
From Verif Require Import PlanModel PlanSpec PlanProofs PlanProofs2 PlanProofs3 PlanProofs4 PlanProofs5 PlanProofs6.
Local Open Scope Z_scope.

Lemma solutions_set U ps qs S : (forall n, In n ps <-> In n qs) -> solutions U ps S -> solutions U qs S.
Proof.
  intros H [HN HS]. assert (HV : forall v, In v (vars ps) <-> In v (vars qs)) by (intros v; unfold vars; rewrite !in_flat_map; split; intros (n & Hn & Hv); exists n; split; auto; now apply H).
  assert (HA : forall s s', agree (vars ps) s s' <-> agree (vars qs) s s') by (intros s s'; split; intros A v Hv; apply A; now apply HV). split.
  - apply NoDup_map_of; [now apply NoDup_map_inv in HN|]. intros a b Ha Hb E. apply (NoDup_map_inj _ _ HN); auto. apply map_eq_agree, HA. now apply map_eq_agree.
  - intros s. transitivity (solves U ps s); [split; intros Hs n Hn; apply Hs; now apply H|]. rewrite HS. split; intros (s' & Hs' & A); exists s'; split; auto; now apply HA.
Qed.
Lemma nodes_seq nodes : map (node_of nodes) (seq 0 (length nodes)) = nodes.
Proof.
  apply (nth_ext _ _ (node_of nodes 0) (node_of nodes 0)); [now rewrite map_length, seq_length|]. intros n Hn. rewrite map_length, seq_length in Hn.
  rewrite (map_nth (node_of nodes) (seq 0 (length nodes)) 0%nat), seq_nth by exact Hn. unfold node_of. rewrite Nat.add_0_l. now apply nth_indep.
Qed.
Lemma occurs_rows nodes outs xs S t : Forall2 (fun r x => slot (node_of nodes (r / 3)) (r mod 3) = Var x) outs xs ->
  occurs outs (rows_of nodes S) t = times S xs t.
Proof.
  intros H. unfold times, rows_of. assert (E : forall s, map (regs_of nodes s) outs = map s xs).
  { intros s. induction H as [|r x outs xs Hr _ IH]; [reflexivity|]. cbn [map]. rewrite IH. f_equal. unfold regs_of. now rewrite Hr. }
  induction S as [|s S IH]; [reflexivity|]. cbn [map occurs fold_right fst snd filter]. fold (occurs outs (map (fun s => (regs_of nodes s, 1)) S) t). rewrite IH, E.
  destruct (values_dec (map s xs) t); cbn [length]; lia.
Qed.

(** C76.  A query consists of triple patterns, none with a variable twice.  The database serves the scans of
    the indices that the plan uses (C76_loaded, C76_loaded_counts, C76_loaded_terms: a database that was loaded does).  For every plan that can
    be built for the patterns, the tree of operators that it is translated to delivers the values of the
    projected variables as often as there are solutions with them, and nothing else. *)
Theorem C76_plan_partial : forall w fuel memory open tl nodes U p projection,
  NoDup U -> Forall (terms 63) U -> linear nodes -> constants_ok nodes ->
  2 ^ 65 <= memory -> (4 * S (length U) ^ length nodes + 1 < fuel)%nat ->
  Planned nodes projection p -> complete nodes p ->
  (forall idx, In idx (indices p) -> serves U fuel open idx) -> (forall idx, In idx (aggregated p) -> serves_counts U fuel open idx) ->
  (forall idx, In idx (fully p) -> serves_terms U fuel tl idx) ->
  incl projection (vars nodes) ->
  exists o outs W L, translateIntern w fuel memory open tl nodes projection p = Some (o, outs) /\
    Answers outs W L o /\
    forall S, solutions U nodes S -> forall t, occurs outs L t = times S projection t.
Proof.
  intros w fuel memory open tl nodes U p projection HU HT Hlin Hc Hm Hf HP HC HS HS' HS'' Hproj.
  assert (Hrange : forall t k, In t U -> (k < 3)%nat -> 0 <= comp t k < 2 ^ 64).
  { intros t k Ht Hk. rewrite Forall_forall in HT. specialize (HT t Ht). destruct t as [[x y] z]. cbn in HT. destruct k as [|[|k]]; cbn; lia. }
  destruct (planned_has w fuel memory open tl nodes projection U HU Hlin Hc Hrange Hm Hf p HP HS HS' HS'' (addAll projection [])) as (o & b & W & L & E & H).
  { intros v Hv. apply addAll_In in Hv. destruct Hv as [Hv|[]]. now left. }
  assert (Hset : forall n, In n (pats nodes p) <-> In n nodes).
  { intros n. rewrite <- (nodes_seq nodes) at 2. unfold pats. split; apply Permutation_in; [|apply Permutation_sym]; apply Permutation_map, HC. }
  destruct (h_binds _ _ _ _ _ _ _ _ H) as (HK & HB & HD).
  assert (Hget : forall x, In x projection -> exists r, bget x b = Some r /\ In (x, r) b).
  { intros x Hx. apply keyed_get; [exact HK|]. apply HD. split; [apply addAll_In; auto|]. apply Hproj in Hx. unfold pvars, vars in *. rewrite in_flat_map in *.
    destruct Hx as (n & Hn & Hx). exists n. split; [now apply Hset|exact Hx]. }
  set (outs := map (fun x => match bget x b with Some r => r | None => (3 * length nodes)%nat end) projection).
  assert (Houts : incl outs (map snd b)).
  { intros r Hr. apply in_map_iff in Hr. destruct Hr as (x & <- & Hx). destruct (Hget x Hx) as (r & -> & Hi). exact (in_map snd _ _ Hi). }
  exists o, outs, W, L. split; [unfold translateIntern; now rewrite E|]. split; [eapply Answers_V; [exact Houts|]; apply H|].
  intros S HSol t. assert (HSol' : solutions U (pats nodes p) S) by (eapply solutions_set; [|exact HSol]; intros n; symmetry; apply Hset).
  rewrite (same_occurs (map snd b) outs L (rows_of nodes S) t Houts (h_same _ _ _ _ _ _ _ _ H S HSol')). apply occurs_rows.
  unfold outs. clear - Hget HB. induction projection as [|x xs IH]; [constructor|]. cbn [map]. constructor; [|apply IH; intros y Hy; apply Hget; now right].
  destruct (Hget x (or_introl eq_refl)) as (r & -> & Hi). now apply HB.
Qed.
Print Assumptions C76_plan_partial.

(** The list of the solutions exists, so that the statement is about all patterns. *)
Theorem C76_solutions : forall U nodes, NoDup U -> linear nodes -> exists S, solutions U nodes S.
Proof. intros U nodes HU HL. destruct (solutions_exist U HU nodes HL) as (S & HS & _). eauto. Qed.
Print Assumptions C76_solutions.

(** A database loaded from the triples [U] serves the scans of each index that it has (see C73_loaded). *)
Theorem C76_loaded : forall U inputs pad m fuel d idx,
  U <> [] -> Forall (terms 39) U -> zl U < 2 ^ 31 -> prepared U inputs -> pad_ok pad ->
  (1 <= m)%nat -> (length U + length U + length U < fuel)%nat ->
  kb_load fuel (m + m) inputs pad = Some d ->
  (forall i t f, d_files d i = Some t -> zl (t_file t f) < 2 ^ 40) ->
  (idx < 6)%nat -> kb_present d idx = true ->
  serves U fuel (fun idx => kb_scan_open fuel d idx) idx.
Proof.
  intros U inputs pad m fuel d idx H1 H2 H3 H4 H5 H6 H7 H8 H9 H10 H11 b1 b2 b3 f Hf.
  destruct (C73_loaded U inputs pad m fuel d H1 H2 H3 H4 H5 H6 H7 H8 H9 idx b1 b2 b3 f (fun _ => no_hint) (fun _ => true) 0 H10 H11 Hf (fun _ => no_hint_ok)) as (L & D & HA & HR & _ & HD).
  - intros _. exists f. split; [exact Hf|]. split; [apply no_hint_wanted|reflexivity].
  - intros _ e _. apply no_hint_wanted.
  - exists L. split; [exact HA|]. rewrite !filter_true in HD by reflexivity. rewrite <- HD. exact HR.
Qed.
Print Assumptions C76_loaded.

(** It serves the aggregated scans too (see C80_loaded). *)
Theorem C76_loaded_counts : forall U inputs pad m fuel d idx,
  U <> [] -> Forall (terms 39) U -> zl U < 2 ^ 31 -> prepared U inputs -> pad_ok pad ->
  (1 <= m)%nat -> (length U + length U + length U < fuel)%nat ->
  kb_load fuel (m + m) inputs pad = Some d ->
  (forall i t f, d_files d i = Some t -> zl (t_file t f) < 2 ^ 40) ->
  (idx < 6)%nat -> kb_present d idx = true ->
  serves_counts U fuel (fun idx => kb_scan_open fuel d idx) idx.
Proof.
  intros U inputs pad m fuel d idx H1 H2 H3 H4 H5 H6 H7 H8 H9 H10 H11 b1 b2 f1 f2 F1 F2 Hb.
  exact (C80_loaded U inputs pad m fuel d H1 H2 H3 H4 H5 H6 H7 H8 H9 idx b1 b2 f1 f2 0 H10 H11 F1 F2 Hb).
Qed.
Print Assumptions C76_loaded_counts.

(** And those that skip two columns (see C81_loaded). *)
Theorem C76_loaded_terms : forall U inputs pad m fuel d idx k,
  U <> [] -> Forall (terms 39) U -> zl U < 2 ^ 31 -> prepared U inputs -> pad_ok pad ->
  (1 <= m)%nat -> (length U + length U + length U < fuel)%nat ->
  kb_load fuel (m + m) inputs pad = Some d ->
  (forall i t f, d_files d i = Some t -> zl (t_file t f) < 2 ^ 40) ->
  (idx < 6)%nat -> kb_present d idx = true ->
  serves_terms U fuel (fun idx => kb_getTermList fuel d idx k) idx.
Proof.
  intros U inputs pad m fuel d idx k H1 H2 H3 H4 H5 H6 H7 H8 H9 H10 H11.
  apply (FullProps.C81_loaded U fuel d); auto. exists inputs, pad, m. repeat (split; [assumption|]). assumption.
Qed.
Print Assumptions C76_loaded_terms.

(** From the loaded triples to the solutions; [k] is the key of a list of terms before the first call of next,
    which is not initialised. *)
Theorem C76_query_partial : forall U inputs pad m w fuel memory d k nodes p projection,
  U <> [] -> NoDup U -> Forall (terms 39) U -> zl U < 2 ^ 31 -> prepared U inputs -> pad_ok pad -> (1 <= m)%nat ->
  kb_load fuel (m + m) inputs pad = Some d -> (forall i t f, d_files d i = Some t -> zl (t_file t f) < 2 ^ 40) ->
  linear nodes -> nodes <> [] -> constants_ok nodes -> 2 ^ 65 <= memory -> (4 * S (length U) ^ length nodes + 1 < fuel)%nat ->
  Planned nodes projection p -> complete nodes p -> (forall idx, In idx (indices p) \/ In idx (aggregated p) \/ In idx (fully p) -> kb_present d idx = true) -> incl projection (vars nodes) ->
  exists o outs W L, translateIntern w fuel memory (fun idx => kb_scan_open fuel d idx) (fun idx => kb_getTermList fuel d idx k) nodes projection p = Some (o, outs) /\
    Answers outs W L o /\
    forall S, solutions U nodes S -> forall t, occurs outs L t = times S projection t.
Proof.
  intros U inputs pad m w fuel memory d k nodes p projection H1 HU H2 H3 H4 H5 H6 H8 H9 Hlin Hne Hc Hm Hf HP HC HI Hproj.
  assert (Hf' : (length U + length U + length U < fuel)%nat).
  { assert (S (length U) <= S (length U) ^ length nodes)%nat; [|lia]. destruct nodes as [|n ns]; [congruence|]. cbn [length Nat.pow].
    pose proof (Nat.pow_nonzero (S (length U)) (length ns)). assert (S (length U) ^ length ns <> 0)%nat by (apply H; lia). nia. }
  apply C76_plan_partial; auto.
  - eapply Forall_impl; [|exact H2]. intros [[x y] z]. cbn. lia.
  - intros idx Hi. eapply C76_loaded; eauto. eapply planned_indices; eauto.
  - intros idx Hi. eapply C76_loaded_counts; eauto. eapply planned_indices; eauto.
  - intros idx Hi. eapply C76_loaded_terms; eauto. eapply planned_indices; eauto.
Qed.
Print Assumptions C76_query_partial.

(** *** Cases: the database of C70_case with the triples (1, 7, 3), (1, 7, 4), (1, 9, 3) and (5, 7, 3). *)
Definition ex_run (nodes : list node) (projection : list nat) (p : plan) : option (list (list Z * Z)) :=
  do d <- kb_load 120 2 (ex_inputs [0; 2; 5]%nat) ex_pad;
  do (o, outs) <- translateIntern (mkWorld (fun _ => None) (fun _ => None) (fun _ => ""%string) (fun _ => QArith_base.Qmake 0 1) (fun _ => 0)) 120 (2 ^ 65) (fun idx => kb_scan_open 120 d idx) (fun idx => kb_getTermList 120 d idx 0) nodes projection p;
  run outs 20 (o_first o) (fun _ => 0).
Definition q_merge : list node := [mkNode (Var 0) (Const 7) (Var 1); mkNode (Var 0) (Const 9) (Var 2)].
Definition q_hash : list node := [mkNode (Var 0) (Const 7) (Var 1); mkNode (Var 0) (Const 9) (Var 1)].
Definition q_cart : list node := [mkNode (Var 0) (Const 7) (Const 3); mkNode (Var 1) (Const 9) (Var 2)].
Definition p_merge : plan := MergeJoin 0 (IndexScan false 5 0) (IndexScan false 5 1).
Definition p_hash : plan := HashJoin (IndexScan false 5 0) (IndexScan true 2 1).
Definition p_cart : plan := CartProd (IndexScan false 2 0) (IndexScan true 0 1).
Example C76_case :
  ex_run q_merge [0; 1; 2]%nat p_merge = Some [([1; 3; 3], 1); ([1; 4; 3], 1)] /\
  ex_run q_hash [1; 0]%nat p_hash = Some [([3; 1], 1)] /\
  ex_run q_cart [0; 2]%nat p_cart = Some [([1; 3], 1); ([5; 3], 1)].
Proof. vm_compute. repeat split. Qed.

(** The hypotheses hold for these cases. *)
Example C76_hyps : Planned q_merge [0; 1; 2]%nat p_merge /\ Planned q_hash [1; 0]%nat p_hash /\ Planned q_cart [0; 2]%nat p_cart /\
  complete q_merge p_merge /\ complete q_hash p_hash /\ complete q_cart p_cart /\
  linear q_merge /\ linear q_hash /\ linear q_cart /\ constants_ok q_merge /\ constants_ok q_hash /\ constants_ok q_cart /\
  NoDup ex_U /\ (4 * S (length ex_U) ^ length q_merge + 1 < 120)%nat /\
  exists d, kb_load 120 2 (ex_inputs [0; 2; 5]%nat) ex_pad = Some d /\
    (forall i t f, d_files d i = Some t -> zl (t_file t f) < 2 ^ 40) /\
    kb_present d 0 = true /\ kb_present d 2 = true /\ kb_present d 5 = true.
Proof.
  assert (HC : forall n, (forall k, match slot n k with Const c => 0 <= c < 2 ^ 63 | Var _ => True end) -> forall k c, slot n k = Const c -> 0 <= c < 2 ^ 63) by (intros n H k c E; specialize (H k); now rewrite E in H).
  split; [apply P_merge; [apply P_scan; cbn; lia|apply P_scan; cbn; lia|reflexivity|reflexivity|reflexivity|reflexivity]|].
  split; [apply P_hash; [apply P_scan; cbn; lia|apply P_scan; cbn; lia|reflexivity|reflexivity]|].
  split; [apply P_cart; [apply P_scan; cbn; lia|apply P_scan; cbn; lia|reflexivity|reflexivity]|].
  do 3 (split; [apply Permutation_refl|]).
  do 3 (split; [repeat constructor; cbn; intuition discriminate|]).
  do 3 (split; [apply Forall_cons; [|apply Forall_cons; [|apply Forall_nil]]; apply HC; intros [|[|k]]; cbn; lia|]).
  split; [repeat constructor; cbn; intuition discriminate|]. split; [vm_compute; repeat constructor|].
  destruct (kb_load 120 2 (ex_inputs [0; 2; 5]%nat) ex_pad) as [d|] eqn:E; [|vm_compute in E; discriminate]. exists d. split; [reflexivity|].
  clear HC. vm_compute in E. injection E as <-. split; [|repeat split; reflexivity]. intros i t f Ht.
  destruct i as [|[|[|[|[|[|[|i]]]]]]]; vm_compute in Ht; try discriminate; injection Ht as <-; destruct f as [|[|[|f]]]; vm_compute; reflexivity.
Qed.

(** Aggregated scans: the object of the first pattern of q_merge is used nowhere; 1 has two of them. *)
Definition p_counts : plan := MergeJoin 0 (AggregatedIndexScan false 5 0) (IndexScan false 5 1).
Example C76_counts_case :
  ex_run q_merge [0; 2]%nat p_counts = Some [([1; 3], 2)] /\
  ex_run q_merge [2]%nat (HashJoin (IndexScan false 5 1) (AggregatedIndexScan true 5 0)) = Some [([3], 2)] /\
  ex_run [mkNode (Var 0) (Var 1) (Var 2)] [1]%nat (AggregatedIndexScan false 5 0) = Some [([7], 2); ([7], 1); ([9], 1)].
Proof. vm_compute. repeat split. Qed.
Example C76_counts_hyps : Planned q_merge [0; 2]%nat p_counts /\ complete q_merge p_counts /\ aggregated p_counts = [5%nat].
Proof.
  split; [|split; [apply Permutation_refl|reflexivity]].
  apply P_merge; [|apply P_scan; cbn; lia|reflexivity|reflexivity|reflexivity|reflexivity].
  apply (P_aggregated q_merge [0; 2]%nat false 5 0 1 0 2 1); try reflexivity; try (cbn; lia).
  intros [|[|j]] Hj; [congruence|cbn; intuition discriminate|]. unfold node_vars, slot_vars, node_of. cbn. destruct j; intros [].
Qed.

(** Scans that skip two columns: each subject with the number of its triples, alone and joined with the
    subjects of triples with 9; each predicate with its number. *)
Definition q_terms : list node := [mkNode (Var 0) (Const 9) (Var 1); mkNode (Var 0) (Var 2) (Var 3)].
Definition p_terms : plan := MergeJoin 0 (IndexScan false 5 0) (FullyAggregatedIndexScan false 0 1).
Example C76_terms_case :
  ex_run q_terms [0; 1]%nat p_terms = Some [([1; 3], 3)] /\
  ex_run q_terms [0]%nat (HashJoin (FullyAggregatedIndexScan false 0 1) (AggregatedIndexScan false 5 0)) = Some [([1], 3)] /\
  ex_run [mkNode (Var 0) (Var 1) (Var 2)] [0]%nat (FullyAggregatedIndexScan false 0 0) = Some [([1], 3); ([5], 1)] /\
  ex_run [mkNode (Var 0) (Var 1) (Var 2)] [1]%nat (FullyAggregatedIndexScan false 5 0) = Some [([7], 3); ([9], 1)].
Proof. vm_compute. repeat split. Qed.
Example C76_terms_hyps : Planned q_terms [0; 1]%nat p_terms /\ complete q_terms p_terms /\ fully p_terms = [0%nat].
Proof.
  split; [|split; [apply Permutation_refl|reflexivity]].
  apply P_merge; [apply P_scan; cbn; lia| |reflexivity|reflexivity|reflexivity|reflexivity].
  apply (P_fully q_terms [0; 1]%nat 0 1 0 1 2 0 2 3); try reflexivity; try (cbn; lia);
    intros [|[|j]] Hj; try congruence; try (cbn; intuition discriminate); unfold node_vars, slot_vars, node_of; cbn; destruct j; intros [].
Qed.

(** *** What does not hold *)
(** Nothing compares the two slots of a pattern with a variable twice: the answer has rows although there is
    no solution. *)
Definition q_twice : list node := [mkNode (Var 0) (Const 7) (Var 0)].
Theorem C76_repeated_refuted :
  Planned q_twice [0]%nat (IndexScan false 5 0) /\ complete q_twice (IndexScan false 5 0) /\
  (forall s, ~ solves ex_U q_twice s) /\
  ex_run q_twice [0]%nat (IndexScan false 5 0) = Some [([3], 1); ([4], 1); ([3], 1)].
Proof.
  split; [apply P_scan; cbn; lia|]. split; [apply Permutation_refl|]. split; [|vm_compute; reflexivity].
  intros s H. specialize (H _ (or_introl eq_refl)). unfold instance in H. cbn in H. intuition congruence.
Qed.
Print Assumptions C76_repeated_refuted.

(** OPTIONAL: for a part that is not a single pattern no selectivity is known (PlanGen.cpp 626-650), and a
    nested loop join is one of the plans (1176-1187).  Its operator does not know that the part is
    optional: the row of 5, which has no triple with 9, is lost. *)
Theorem C76_optional_refuted :
  In (instance (fun v => match v with O => 5 | _ => 3 end) (node_of q_merge 0)) ex_U /\
  ex_run q_merge [0; 1; 2]%nat (NestedLoopJoin (IndexScan false 5 0) (Optional (IndexScan false 5 1))) = Some [([1; 3; 3], 1); ([1; 4; 3], 1)].
Proof. split; [cbn; auto 6|vm_compute; reflexivity]. Qed.
Print Assumptions C76_optional_refuted.

(** A product on the right side of a nested loop join keeps the rows of its earlier runs: the only row of
    OPTIONAL { ?0 9 ?2 . ?3 7 4 } is delivered twice for the second row of the left side. *)
Definition q_again : list node := [mkNode (Var 0) (Const 7) (Var 1); mkNode (Var 0) (Const 9) (Var 2); mkNode (Var 3) (Const 7) (Const 4)].
Theorem C76_product_again_refuted :
  ex_run [mkNode (Var 0) (Const 9) (Var 2); mkNode (Var 3) (Const 7) (Const 4)] [0; 2; 3]%nat (CartProd (IndexScan false 5 0) (IndexScan false 5 1)) = Some [([1; 3; 1], 1)] /\
  ex_run q_again [0; 1]%nat (NestedLoopJoin (IndexScan false 5 0) (Optional (CartProd (IndexScan false 5 1) (IndexScan false 5 2)))) = Some [([1; 3], 1); ([1; 4], 1); ([1; 4], 1)].
Proof. vm_compute. split; reflexivity. Qed.
Print Assumptions C76_product_again_refuted.
