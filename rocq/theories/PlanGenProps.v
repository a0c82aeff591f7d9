(** Theorems about the plan generator: every query of up to 64 patterns gets a plan that covers them. *)
From Verif Require Import FullModel.
From Verif Require Import OpSpec KbSpec TsSpec InserterProofs OpHashProps KbProps KbModel TsKbModel KbProofs.
From Verif Require Import PlanModel PlanSpec PlanProofs PlanProofs4 PlanProofs6 PlanProps PlanGenModel PlanGenProofs.
Local Open Scope Z_scope.

(** The variable [v] of pattern [i] is projected or occurs in another pattern. *)
Definition used (ps : list node) (projection : list nat) (i v : nat) : Prop :=
  In v projection \/ exists j m, j <> i /\ nth_error ps j = Some m /\ In v (pattern_vars m).
(** This is so for every variable of every pattern; for all but one of its slots. *)
Definition all_used (ps : list node) (projection : list nat) : Prop :=
  forall i n v, nth_error ps i = Some n -> In v (pattern_vars n) -> used ps projection i v.
Definition one_unused (ps : list node) (projection : list nat) : Prop :=
  forall i n k k' v v', nth_error ps i = Some n -> (k < 3)%nat -> (k' < 3)%nat -> k <> k' -> slot n k = Var v -> slot n k' = Var v' ->
  used ps projection i v \/ used ps projection i v'.
(** A pattern with a constant in one slot and variables in the others: one of them is used. *)
Definition constant_used (ps : list node) (projection : list nat) : Prop :=
  forall i n k k' k'' c v v', nth_error ps i = Some n -> (k < 3)%nat -> (k' < 3)%nat -> (k'' < 3)%nat -> k <> k' -> k <> k'' -> k' <> k'' ->
  slot n k = Const c -> slot n k' = Var v -> slot n k'' = Var v' -> used ps projection i v \/ used ps projection i v'.
Lemma one_constant ps projection : one_unused ps projection -> constant_used ps projection.
Proof. intros H i n k k' k'' c v v' E Hk Hk' Hk'' _ _ Hne _ Hv Hv'. exact (H i n k' k'' v v' E Hk' Hk'' Hne Hv Hv'). Qed.
Lemma all_one ps projection : all_used ps projection -> one_unused ps projection.
Proof. intros H i n k k' v v' E Hk _ _ Hv _. left. eapply H; eauto. eapply slot_vars_In; eauto. Qed.
Lemma nth_of nodes i n : nth_error nodes i = Some n -> node_of nodes i = n.
Proof. intros H. unfold node_of. now apply nth_error_nth. Qed.
Lemma used_isUnused nodes projection i v : used nodes projection i v -> isUnused nodes projection i v = false.
Proof.
  intros H. unfold isUnused. destruct H as [Hp|(j & m & Hj & Em & Hm)].
  - rewrite (proj2 (mem_In v projection) Hp). reflexivity.
  - assert (Ho : In v (others nodes i)).
    { unfold others. apply in_flat_map. exists j. split; [apply in_seq; assert (nth_error nodes j <> None) by congruence; apply nth_error_Some in H; lia|].
      destruct (Nat.eqb_spec j i); [contradiction|]. pose proof (nth_of _ _ _ Em) as En'. rewrite <- En' in Hm. exact Hm. }
    rewrite (proj2 (mem_In _ _) Ho), Bool.andb_false_r. reflexivity.
Qed.
Lemma one_filter nodes projection : one_unused nodes projection ->
  forall i, (i < length nodes)%nat -> (length (filter (isUnused nodes projection i) (node_vars nodes i)) < 2)%nat.
Proof.
  intros H i Hi. destruct (nth_error nodes i) as [n|] eqn:E; [|apply nth_error_None in E; lia].
  assert (P : forall k k' v v', (k < 3)%nat -> (k' < 3)%nat -> k <> k' -> slot n k = Var v -> slot n k' = Var v' -> isUnused nodes projection i v = false \/ isUnused nodes projection i v' = false).
  { intros k k' v v' H1 H2 H3 H4 H5. destruct (H i n k k' v v' E H1 H2 H3 H4 H5); [left|right]; now apply used_isUnused. }
  unfold node_vars, slot_vars. rewrite (nth_of _ _ _ E), !filter_app, !app_length.
  pose proof (P 0%nat 1%nat) as P1. pose proof (P 0%nat 2%nat) as P2. pose proof (P 1%nat 2%nat) as P3. clear P.
  destruct (slot n 0) as [v0|c0], (slot n 1) as [v1|c1], (slot n 2) as [v2|c2]; cbn [filter length app];
    try specialize (P1 _ _ ltac:(lia) ltac:(lia) ltac:(lia) eq_refl eq_refl); try specialize (P2 _ _ ltac:(lia) ltac:(lia) ltac:(lia) eq_refl eq_refl); try specialize (P3 _ _ ltac:(lia) ltac:(lia) ltac:(lia) eq_refl eq_refl);
    repeat match goal with |- context [isUnused ?a ?b ?c ?d] => destruct (isUnused a b c d) end; cbn [length]; try lia; intuition discriminate.
Qed.
(** If every variable is used, no scan is aggregated and none skips two columns. *)
Lemma used_aggregated nodes projection p : all_used nodes projection -> Planned nodes projection p -> aggregated p = [] /\ fully p = [].
Proof.
  intros HU. induction 1 as [u i j Hj Hi6|u i j k1 k2 k3 v3 Hj Hi6 Hcol Hv3 Hp Ho Hb|i j k1 k2 k3 v1 v2 v3 Hj Hi6 Hcol Hv1 Hv2 Hv3 Hp2 Ho2 Hp Ho|on l r Hl IHl Hr IHr HO HC El Er|l r Hl IHl Hr IHr HO HC|l r Hl IHl Hr IHr HO HC];
    cbn [aggregated fully]; try (split; reflexivity); try (now rewrite (proj1 IHl), (proj1 IHr), (proj2 IHl), (proj2 IHr)).
  all: exfalso; (destruct (nth_error nodes j) as [n|] eqn:E; [|apply nth_error_None in E; lia]); pose proof (nth_of _ _ _ E) as En; destruct (columns_perm _ _ _ _ Hi6 Hcol) as (A & B & C & _);
    (destruct (HU j n v3 E) as [H|(j' & m & Hne & Em & Hm)]; [eapply slot_vars_In; [exact C|]; now rewrite <- En|contradiction|]); apply (Ho j' Hne); rewrite <- (nth_of _ _ _ Em) in Hm; exact Hm.
Qed.

(** C77.  Whatever the estimates say, a query with at least one and at most 64 patterns gets a plan that
    evaluates every pattern exactly once and combines parts with a common variable by joins only.  If there
    are two variables in a pattern that are used nowhere else, its other slot has to be a variable, and the costs of the scan
    without order must not be below those of the ordered one: the code gives them the same costs
    (src/layers/TridentLayer.cpp 373-415), at most each other unless they are not a number. *)
Theorem C77_generated : forall le ge better negative nodes projection,
  (forall i j, negative i j = false) -> (0 < length nodes <= 64)%nat -> constant_used nodes projection ->
  (one_unused nodes projection \/ forall idx i, le (FullyAggregatedIndexScan false idx i) (FullyAggregatedIndexScan true idx i) = true) ->
  exists p, translate le ge better negative nodes projection = Some p /\ complete nodes p /\ Planned nodes projection p.
Proof.
  intros le ge better negative nodes projection Hn Hl Hc Hu. destruct (translate_planned le ge better negative nodes projection Hn Hl) as (p & H1 & H2 & H3); [|eauto].
  intros i Hi. split.
  - intros k k' k'' c v v' Hk Hk' Hk'' N1 N2 N3 E1 E2 E3. destruct (nth_error nodes i) as [n|] eqn:E; [|apply nth_error_None in E; lia]. rewrite (nth_of _ _ _ E) in *.
    destruct (Hc i n k k' k'' c v v' E); auto; [left|right]; now apply used_isUnused.
  - destruct Hu as [Hu|Hu]; [left; now apply one_filter|right; intros idx; apply Hu].
Qed.
Print Assumptions C77_generated.

(** From the triples that were loaded to the answer of the query: the plan that the generator chooses,
    whichever it is, delivers the values of the projected variables as often as there are solutions with
    them.  Missing: patterns with a variable twice, or with a constant and two
    variables that are used nowhere else (C80_constant_and_two_unused_refuted), other parts of a group, and joins whose
    table does not fit in the memory. *)
Theorem C77_answer_partial : forall le ge better negative U inputs pad m w fuel memory d k nodes projection,
  U <> [] -> NoDup U -> Forall (terms 39) U -> zl U < 2 ^ 31 -> prepared U inputs -> pad_ok pad -> (1 <= m)%nat ->
  kb_load fuel (m + m) inputs pad = Some d -> (forall i t f, d_files d i = Some t -> zl (t_file t f) < 2 ^ 40) ->
  (forall idx, (idx < 6)%nat -> kb_present d idx = true) ->
  (forall i j, negative i j = false) -> (0 < length nodes <= 64)%nat -> constant_used nodes projection ->
  (one_unused nodes projection \/ forall idx i, le (FullyAggregatedIndexScan false idx i) (FullyAggregatedIndexScan true idx i) = true) -> incl projection (vars nodes) ->
  linear nodes -> constants_ok nodes -> 2 ^ 65 <= memory -> (4 * S (length U) ^ length nodes + 1 < fuel)%nat ->
  exists p o outs W L, translate le ge better negative nodes projection = Some p /\
    translateIntern w fuel memory (fun idx => kb_scan_open fuel d idx) (fun idx => kb_getTermList fuel d idx k) nodes projection p = Some (o, outs) /\
    Answers outs W L o /\
    forall S, solutions U nodes S -> forall t, occurs outs L t = times S projection t.
Proof.
  intros le ge better negative U inputs pad m w fuel memory d k nodes projection H1 HU H2 H3 H4 H5 H6 H8 H9 Hix Hn Hl Hcu Hu Hproj Hlin Hc Hm Hf.
  destruct (C77_generated le ge better negative nodes projection Hn Hl Hcu Hu) as (p & HT & HC & HP). exists p.
  destruct (C76_query_partial U inputs pad m w fuel memory d k nodes p projection) as (o & outs & W & L & E & HA & HO); auto.
  - destruct nodes; [cbn in Hl; lia|discriminate].
  - intros idx Hi. apply Hix. eapply planned_indices; eauto.
  - exists o, outs, W, L. auto.
Qed.
Print Assumptions C77_answer_partial.

(** *** Cases *)
(** The plans with fewer scans without order are cheaper, then merge joins, then hash joins, then products. *)
Fixpoint ex_cost (p : plan) : Z :=
  match p with
  | IndexScan u idx i => (if u then 2 else 3) + Z.of_nat idx
  | AggregatedIndexScan u idx i => (if u then 1 else 2)
  | FullyAggregatedIndexScan u idx i => 1
  | MergeJoin _ l r => ex_cost l + ex_cost r + 1
  | HashJoin l r => ex_cost l + ex_cost r + 5
  | CartProd l r => (ex_cost l + 1) * (ex_cost r + 1)
  | NestedLoopJoin l r => ex_cost l * ex_cost r
  | Optional p => ex_cost p
  end.
Definition ex_translate := translate (fun p q => ex_cost p <=? ex_cost q) (fun p q => ex_cost q <=? ex_cost p) (fun p q => ex_cost p <? ex_cost q) (fun _ _ => false).
(** Two patterns on each side, joined on variables of their own; no variable in common. *)
Definition q_two : list node := [mkNode (Var 0) (Const 7) (Var 1); mkNode (Var 2) (Const 7) (Var 3); mkNode (Var 0) (Const 9) (Var 1); mkNode (Var 2) (Const 9) (Const 3)].
Example C77_case :
  ex_translate q_merge [0; 1; 2]%nat = Some (MergeJoin 0 (IndexScan false 0 0) (IndexScan false 0 1)) /\
  ex_translate q_cart [0; 1; 2]%nat = Some (CartProd (IndexScan true 0 0) (IndexScan true 0 1)) /\
  ex_translate q_merge [0; 1]%nat = Some (MergeJoin 0 (IndexScan false 0 0) (AggregatedIndexScan false 5 1)) /\
  ex_translate q_terms [0; 1]%nat = Some (MergeJoin 0 (IndexScan false 0 0) (FullyAggregatedIndexScan false 0 1)) /\
  exists p, ex_translate q_two [0; 1; 2; 3]%nat = Some p /\ relations p <> [].
Proof. do 4 (split; [vm_compute; reflexivity|]). eexists. split; [vm_compute; reflexivity|discriminate]. Qed.
Example C77_hyps : constant_used q_terms [0; 1]%nat /\ ~ one_unused q_terms [0; 1]%nat /\ (forall idx i, (ex_cost (FullyAggregatedIndexScan false idx i) <=? ex_cost (FullyAggregatedIndexScan true idx i)) = true) /\ one_unused q_merge [0; 1]%nat /\ all_used q_merge [0; 1; 2]%nat /\ all_used q_two [1; 3]%nat /\ linear q_two /\ constants_ok q_two /\
  exists d, kb_load 120 2 (ex_inputs [0; 1; 2; 3; 4; 5]%nat) ex_pad = Some d /\ forall idx, (idx < 6)%nat -> kb_present d idx = true.
Proof.
  split.
  { intros i n k k' k'' c v v' E Hk Hk' Hk'' N1 N2 N3 E1 E2 E3. destruct i as [|[|i]]; [| |destruct i; discriminate]; injection E as <-.
    - destruct k as [|[|[|k]]]; try lia; cbn in E1; try discriminate. destruct k' as [|[|[|k']]]; try lia; cbn in E2; injection E2 as <-; unfold used; cbn; tauto.
    - destruct k as [|[|[|k]]]; try lia; discriminate. }
  split; [intros H; destruct (H 1%nat (mkNode (Var 0) (Var 2) (Var 3)) 1%nat 2%nat 2%nat 3%nat eq_refl ltac:(lia) ltac:(lia) ltac:(lia) eq_refl eq_refl) as [[X|(j & m & Hj & Em & Hm)]|[X|(j & m & Hj & Em & Hm)]];
    [cbn in X; intuition discriminate| |cbn in X; intuition discriminate|]; (destruct j as [|[|j]]; [injection Em as <-; cbn in Hm; intuition discriminate|congruence|destruct j; discriminate])|].
  split; [reflexivity|].
  assert (HU : forall ps pr, forallb (fun i => forallb (fun v => negb (isUnused ps pr i v)) (node_vars ps i)) (seq 0 (length ps)) = true -> all_used ps pr).
  { intros ps pr H i n v E Hv. assert (Hi : (i < length ps)%nat) by (apply nth_error_Some; congruence). rewrite forallb_forall in H. specialize (H i (proj2 (in_seq _ _ _) (conj (Nat.le_0_l i) Hi))).
    rewrite forallb_forall in H. pose proof (nth_of _ _ _ E) as En. assert (Hv' : In v (node_vars ps i)) by (unfold node_vars, slot_vars; rewrite En; exact Hv).
    specialize (H v Hv'). apply Bool.negb_true_iff in H. unfold isUnused in H. destruct (mem v pr) eqn:M; [left; now apply mem_In|]. right. cbn [negb andb] in H. apply Bool.negb_false_iff in H.
    apply mem_In in H. unfold others in H. apply in_flat_map in H. destruct H as (j & Hj & H). apply in_seq in Hj. destruct (Nat.eqb_spec j i) as [|Hne]; [destruct H|].
    destruct (nth_error ps j) as [m|] eqn:Em; [|apply nth_error_None in Em; lia]. exists j, m. split; [exact Hne|]. split; [exact Em|]. rewrite <- (nth_of _ _ _ Em). exact H. }
  split.
  { intros i n k k' v v' E Hk Hk' Hne Ev Ev'. destruct i as [|[|i]]; [| |destruct i; discriminate]; injection E as <-;
    (destruct k as [|[|[|k]]]; try lia; cbn in Ev; try discriminate; injection Ev as <-); (destruct k' as [|[|[|k']]]; try lia; cbn in Ev'; try discriminate; injection Ev' as <-); unfold used; cbn; tauto. }
  split; [apply HU; reflexivity|]. split; [apply HU; reflexivity|]. split; [repeat constructor; cbn; intuition discriminate|]. split.
  - repeat (apply Forall_cons; [intros [|[|k]] c E; cbn in E; try discriminate; injection E as <-; lia|]). apply Forall_nil.
  - destruct (kb_load 120 2 (ex_inputs [0; 1; 2; 3; 4; 5]%nat) ex_pad) as [d|] eqn:E; [|vm_compute in E; discriminate]. exists d. split; [reflexivity|].
    vm_compute in E. injection E as <-. intros idx Hi. destruct idx as [|[|[|[|[|[|idx]]]]]]; try lia; reflexivity.
Qed.

(** *** What does not hold: a query with more than 64 patterns gets no plan at all. *)
Theorem C77_large_refuted : forall le ge better negative nodes projection, (64 < length nodes)%nat -> translate le ge better negative nodes projection = None.
Proof.
  intros le ge better negative nodes projection H. unfold translate, translate_int. replace (bs_max <? length nodes)%nat with true by (symmetry; apply Nat.ltb_lt; exact H). reflexivity.
Qed.
Print Assumptions C77_large_refuted.

(** A pattern with a constant and two variables that are used nowhere else makes the whole query fail, although
    there are solutions: { ?0 9 ?1 . ?2 7 ?3 } with ?2 and ?3 projected (see C80_constant_and_two_unused_refuted). *)
Definition q_constant : list node := [mkNode (Var 0) (Const 9) (Var 1); mkNode (Var 2) (Const 7) (Var 3)].
Theorem C77_constant_refuted :
  solves ex_U q_constant (fun v => match v with 2%nat => 5 | 0%nat => 1 | _ => 3 end) /\
  (forall p, ex_translate q_constant [2; 3]%nat = Some p -> complete q_constant p /\ ex_run q_constant [2; 3]%nat p = None) /\
  exists p, ex_translate q_constant [2; 3]%nat = Some p.
Proof.
  split; [|split].
  - intros n [<-|[<-|[]]]; cbn; auto 6.
  - intros p E. vm_compute in E. injection E as <-. split; [apply Permutation.Permutation_refl|vm_compute; reflexivity].
  - eexists. vm_compute. reflexivity.
Qed.
Print Assumptions C77_constant_refuted.
