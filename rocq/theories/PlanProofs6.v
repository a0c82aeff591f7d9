(** Proofs about plans: by induction over the plan. *)
From Coq Require Import ZifyBool.
From Verif Require Import OpSpec OpProofs OpProofs3 OpHashProofs OpHashProofs2 KbSpec TsSpec TallySpec InserterProofs OpHashProps OpMergeProps OpProps.
From Verif Require Import PlanModel PlanSpec PlanProofs PlanProofs2 PlanProofs3 PlanProofs4 PlanProofs5.
Local Open Scope Z_scope.

Section Whole.
Variables (w : world) (fuel : nat) (memory : Z) (open : nat -> option Z -> option Z -> option Z -> option pitr) (tl : nat -> option pitr) (nodes : list node) (projection : list nat) (U : list (Z * Z * Z)).
Hypothesis HU : NoDup U.
Hypothesis Hlin : linear nodes.
Hypothesis Hconst : constants_ok nodes.
Hypothesis Hrange : forall t k, In t U -> (k < 3)%nat -> 0 <= comp t k < 2 ^ 64.
Hypothesis Hmem : 2 ^ 65 <= memory.
Hypothesis Hfuel : (4 * S (length U) ^ length nodes + 1 < fuel)%nat.
Local Notation node_of := (node_of nodes).
Local Notation pats := (pats nodes).
Local Notation pvars := (pvars nodes).
Local Notation regs_of := (regs_of nodes).
Local Notation rows_of := (rows_of nodes).
Local Notation Has := (Has U nodes).
Local Notation Planned := (Planned nodes projection).

Lemma const_int64 i k : int64 (const nodes i k).
Proof.
  unfold const, int64. destruct (slot (node_of i) k) as [v|c] eqn:E; [lia|]. unfold PlanModel.node_of in E.
  destruct (nth_in_or_default i nodes (mkNode (Const 0) (Const 0) (Const 0))) as [H|H].
  - unfold constants_ok in Hconst. rewrite Forall_forall in Hconst. pose proof (Hconst _ H k c E). lia.
  - rewrite H in E. destruct k as [|[|k]]; injection E as <-; lia.
Qed.
Lemma leaf_has proj u idx i : (idx < 6)%nat -> serves U fuel open idx ->
  exists o b W L, translatePlan w fuel memory open tl nodes proj (IndexScan u idx i) = Some (o, b) /\ Has proj (IndexScan u idx i) o b W L.
Proof.
  intros Hidx HS. cbn [translatePlan]. unfold translateIndexScan. destruct (columns idx) as [[k1 k2] k3] eqn:Hcol.
  destruct (HS (bound nodes i k1) (bound nodes i k2) (bound nodes i k3) (const nodes i k1, const nodes i k2, const nodes i k3)) as (LU & HA & HR).
  { split; [|split]; apply const_int64. }
  eexists _, _, (scan_regs (reg_of i k1) (reg_of i k2) (reg_of i k3) (bound nodes i k1) (bound nodes i k2) (bound nodes i k3)), _.
  split; [reflexivity|]. split.
  - eapply Answers_V; [|eapply scan_answers; exact HR]. eapply leaf_incl; eauto.
  - eapply leaf_incl; eauto.
  - intros x Hx. cbn [relations]. left. symmetry. eapply leaf_regs_rel; eauto.
  - apply leaf_binds; auto.
  - intros S HSol. eapply leaf_same; eauto.
  - intros v r HO Hi. destruct u; [discriminate|]. eapply leaf_ascending; eauto.
Qed.

Lemma agg_has proj u idx i k1 k2 k3 v : (idx < 6)%nat -> columns idx = (k1, k2, k3) -> slot (node_of i) k3 = Var v -> ~ In v proj ->
  (bound nodes i k2 = true -> bound nodes i k1 = true) -> serves_counts U fuel open idx ->
  exists o b W L, translatePlan w fuel memory open tl nodes proj (AggregatedIndexScan u idx i) = Some (o, b) /\ Has proj (AggregatedIndexScan u idx i) o b W L.
Proof.
  intros Hidx Hcol Hv Hp Hb HS. cbn [translatePlan]. unfold translateAggregatedIndexScan. rewrite Hcol.
  destruct (HS (bound nodes i k1) (bound nodes i k2) (const nodes i k1) (const nodes i k2) (const_int64 i k1) (const_int64 i k2) Hb) as (LU & D & HA & HR & HD).
  eexists _, _, (agg_regs (reg_of i k1) (reg_of i k2) (bound nodes i k1) (bound nodes i k2)), _.
  split; [reflexivity|]. rewrite (agg_bindings nodes proj i k3 v Hv Hp u). split.
  - eapply Answers_V; [|eapply agg_answers; [exact HR|]]; [eapply agg_incl; eauto|]. apply Forall_forall. intros [[a b] c] Hx. apply (proj2 HD) in Hx. cbn [snd]. tauto.
  - eapply agg_incl; eauto.
  - intros x Hx. cbn [relations]. left. symmetry. eapply agg_regs_rel; eauto.
  - apply agg_binds; auto.
  - intros S HSol. eapply agg_same; eauto.
  - intros x r HO Hi. destruct u; [discriminate|]. eapply agg_ascending; eauto.
Qed.

Lemma full_has proj idx i k1 k2 k3 v1 v2 v3 : (idx < 6)%nat -> columns idx = (k1, k2, k3) ->
  slot (node_of i) k1 = Var v1 -> slot (node_of i) k2 = Var v2 -> slot (node_of i) k3 = Var v3 -> ~ In v2 proj -> ~ In v3 proj -> serves_terms U fuel tl idx ->
  exists o b W L, translatePlan w fuel memory open tl nodes proj (FullyAggregatedIndexScan false idx i) = Some (o, b) /\ Has proj (FullyAggregatedIndexScan false idx i) o b W L.
Proof.
  intros Hidx Hcol Hv1 Hv2 Hv3 Hp2 Hp3 (LU & D & HA & HR & HD). cbn [translatePlan]. unfold translateFullyAggregatedIndexScan. rewrite Hcol.
  rewrite (full_bindings nodes proj idx i k1 k2 k3 Hidx Hcol v3 Hv3 Hp3 v2 Hv2 Hp2). rewrite (var_bound nodes i k1 v1 Hv1). cbn [orb].
  eexists _, _, [reg_of i k1], _. split; [reflexivity|]. split.
  - eapply Answers_V; [|eapply full_answers; [exact HR|apply HD]]. eapply full_incl; eauto.
  - eapply full_incl; eauto.
  - intros x Hx. cbn [relations]. left. symmetry. eapply full_regs_rel; eauto.
  - apply full_binds; auto.
  - intros S HSol. eapply full_same; eauto.
  - intros x r HO Hi. eapply full_ascending; eauto. apply HD.
Qed.

Lemma slot_pvars p i k v : In i (relations p) -> (k < 3)%nat -> slot (node_of i) k = Var v -> In v (pvars p).
Proof.
  intros Hi Hk E. unfold PlanProofs4.pvars, PlanProofs4.pats. eapply vars_In; [apply in_map, Hi|]. eapply slot_vars_In; eauto.
Qed.
Lemma ordering_var p : Planned p -> forall v, ordering nodes p = Some v -> In v (pvars p).
Proof.
  induction 1 as [u idx i Hi Hidx|u idx i k1 k2 k3 v3 Hi Hidx Hcol Hv3 Hp Ho Hb|idx i k1 k2 k3 v1 v2 v3 Hi Hidx Hcol Hv1 Hv2 Hv3 Hp2 Ho2 Hp3 Ho3|on l r Hl IHl Hr IHr HO HC El Er|l r Hl IHl Hr IHr HO HC|l r Hl IHl Hr IHr HO HC]; intros v E; cbn [ordering] in E; try discriminate.
  - destruct u; [discriminate|]. destruct (columns idx) as [[k1 k2] k3] eqn:Hcol. destruct (columns_perm _ _ _ _ Hidx Hcol) as (A & B & C & _). unfold slot_var in E.
    destruct (slot (node_of i) k1) as [v1|z1] eqn:E1; [injection E as ->; eapply (slot_pvars _ i k1); cbn; auto|].
    destruct (slot (node_of i) k2) as [v2|z2] eqn:E2; [injection E as ->; eapply (slot_pvars _ i k2); cbn; auto|].
    destruct (slot (node_of i) k3) as [v3|z3] eqn:E3; [injection E as ->; eapply (slot_pvars _ i k3); cbn; auto|discriminate].
  - destruct u; [discriminate|]. rewrite Hcol in E. destruct (columns_perm _ _ _ _ Hidx Hcol) as (A & B & C & _). unfold slot_var in E.
    destruct (slot (node_of i) k1) as [v1|z1] eqn:E1; [injection E as ->; eapply (slot_pvars _ i k1); cbn; auto|].
    destruct (slot (node_of i) k2) as [v2|z2] eqn:E2; [injection E as ->; eapply (slot_pvars _ i k2); cbn; auto|discriminate].
  - rewrite Hcol in E. destruct (columns_perm _ _ _ _ Hidx Hcol) as (A & _). unfold slot_var in E. rewrite Hv1 in E. injection E as ->. eapply (slot_pvars _ i k1); cbn; auto.
  - specialize (IHl v E). unfold PlanProofs4.pvars, PlanProofs4.pats in *. cbn [relations]. rewrite map_app, vars_app. apply in_or_app. auto.
Qed.
Lemma planned_optional p : Planned p -> is_optional p = false.
Proof. destruct 1; reflexivity. Qed.
Lemma overlaps_dis l r : overlaps l r = false -> forall i, In i (relations l) -> ~ In i (relations r).
Proof.
  unfold overlaps. intros H i Hi Hr. enough (existsb (fun i => mem i (relations r)) (relations l) = true) by congruence. apply existsb_exists. exists i. split; [exact Hi|now apply mem_In].
Qed.
Lemma planned_relations p : Planned p -> NoDup (relations p) /\ forall i, In i (relations p) -> (i < length nodes)%nat.
Proof.
  induction 1 as [u idx i Hi Hidx|u idx i k1 k2 k3 v3 Hi Hidx Hcol Hv3 Hp Ho Hb|idx i k1 k2 k3 v1 v2 v3 Hi Hidx Hcol Hv1 Hv2 Hv3 Hp2 Ho2 Hp3 Ho3|on l r Hl IHl Hr IHr HO HC El Er|l r Hl IHl Hr IHr HO HC|l r Hl IHl Hr IHr HO HC]; cbn [relations].
  1, 2, 3: split; [repeat constructor; intros []|]; intros j [<-|[]]; exact Hi.
  all: destruct IHl as [N1 B1], IHr as [N2 B2]; split; [apply NoDup_app_intro; auto; now apply overlaps_dis|];
    intros j Hj; apply in_app_or in Hj; destruct Hj; auto.
Qed.
Lemma size_bound p : Planned p -> (length U ^ length (relations p) <= S (length U) ^ length nodes)%nat.
Proof.
  intros H. destruct (planned_relations p H) as [N B]. apply pow_mono; [lia|lia|].
  rewrite <- (seq_length (length nodes) 0). apply NoDup_incl_length; [exact N|]. intros i Hi. apply in_seq. specialize (B i Hi). lia.
Qed.
Lemma pvars_In p v : In v (pvars p) <-> exists i, In i (relations p) /\ In v (node_vars nodes i).
Proof.
  unfold PlanProofs4.pvars, PlanProofs4.pats, vars. rewrite in_flat_map. split.
  - intros (n & Hn & Hv). apply in_map_iff in Hn. destruct Hn as (i & <- & Hi). eauto.
  - intros (i & Hi & Hv). exists (node_of i). split; [now apply in_map|exact Hv].
Qed.
(** The variables that the parts of a plan are asked for. *)
Definition wanted (proj : list nat) : Prop :=
  forall v, In v proj -> In v projection \/ exists i j, i <> j /\ In v (node_vars nodes i) /\ In v (node_vars nodes j).
Lemma wanted_join l r proj : overlaps l r = false -> wanted proj -> wanted (addAll (getJoinVariables nodes l r) proj).
Proof.
  intros HO HW v Hv. apply addAll_In in Hv. destruct Hv as [Hv|Hv]; [|now apply HW]. apply joinvars_In in Hv. destruct Hv as [H1 H2].
  apply pvars_In in H1, H2. destruct H1 as (i & Hi & H1), H2 as (j & Hj & H2). right. exists i, j. split; [|auto]. intros ->. exact (overlaps_dis l r HO j Hi Hj).
Qed.
Lemma edge_var l r : connected nodes l r = true <-> exists v, In v (pvars l) /\ In v (pvars r).
Proof.
  assert (NV : forall i v, In v (node_vars nodes i) <-> In v (pattern_vars (node_of i))) by reflexivity.
  pose proof pvars_In as PV.
  unfold connected, edge. rewrite existsb_exists. split.
  - intros (i & Hi & H). apply existsb_exists in H. destruct H as (j & Hj & H). apply existsb_exists in H. destruct H as (v & Hv & H). apply mem_In in H.
    exists v. split; apply PV; eauto.
  - intros (v & H1 & H2). apply PV in H1, H2. destruct H1 as (i & Hi & Hv), H2 as (j & Hj & Hv'). exists i. split; [exact Hi|]. apply existsb_exists. exists j. split; [exact Hj|].
    apply existsb_exists. exists v. split; [exact Hv|now apply mem_In].
Qed.

(** The registers that a join keeps of a side: that of the variable and the others. *)
Lemma tail_set proj p o b W L on x : Has proj p o b W L -> In (on, x) b ->
  (forall y, In y (x :: tail_of b on) <-> In y (map snd b)) /\ NoDup (x :: tail_of b on).
Proof.
  intros H Hi. pose proof (h_binds _ _ _ _ _ _ _ _ H) as (HK & HB & _). pose proof (binds_nodup _ _ _ _ (h_binds _ _ _ _ _ _ _ _ H)) as HN. split.
  - intros y. cbn [In]. unfold tail_of. rewrite !in_map_iff. split.
    + intros [<-|([v z] & <- & Hz)]; [exists (on, x); auto|]. apply filter_In in Hz. exists (v, z). split; [reflexivity|tauto].
    + intros ([v z] & <- & Hz). cbn [snd]. destruct (Nat.eqb_spec v on) as [->|N].
      * left. apply (keyed_In _ _ _ HK) in Hi, Hz. congruence.
      * right. exists (v, z). split; [reflexivity|]. apply filter_In. split; [exact Hz|]. cbn [fst]. destruct (Nat.eqb_spec v on); [contradiction|reflexivity].
  - constructor.
    + unfold tail_of. rewrite in_map_iff. intros ([v z] & E & Hz). cbn [snd] in E. subst z. apply filter_In in Hz. destruct Hz as [Hz Hne]. cbn [fst] in Hne.
      destruct (HB _ _ Hi) as [_ E1]. destruct (HB _ _ Hz) as [_ E2]. rewrite E1 in E2. injection E2 as ->. rewrite Nat.eqb_refl in Hne. discriminate.
    + unfold tail_of. clear - HN. induction b as [|[v z] b IH]; [constructor|]. cbn [map snd] in HN. inversion HN as [|? ? H1 H2]; subst. cbn [filter].
      destruct (negb _); cbn [map snd]; [|auto]. constructor; [|auto]. rewrite in_map_iff. intros (e & E & He). apply filter_In in He. apply H1. apply in_map_iff. exists e. tauto.
Qed.
Lemma compat_split on vs s1 s2 : In on vs -> compat vs s1 s2 = (s1 on =? s2 on) && compat (filter (fun v => negb (v =? on)%nat) vs) s1 s2.
Proof.
  intros H. apply Bool.eq_iff_eq_true. rewrite Bool.andb_true_iff, !compat_iff. split.
  - intros A. split; [rewrite (A on H); apply Z.eqb_refl|]. intros v Hv. apply filter_In in Hv. now apply A.
  - intros [E A] v Hv. destruct (Nat.eqb_spec v on) as [->|N]; [lia|]. apply A. apply filter_In. split; [exact Hv|]. destruct (Nat.eqb_spec v on); [contradiction|reflexivity].
Qed.

Section Common.
Variables (proj : list nat) (l r q : plan) (lt rt jo : oper) (lb rb : bindings) (Wl Wr : list nat) (L R J0 : list (regs * Z)) (on lr rr : nat).
Local Notation vs := (getJoinVariables nodes l r).
Hypothesis Pl : Planned l.
Hypothesis Pr : Planned r.
Hypothesis Pq : Planned q.
Hypothesis Hl : Has (addAll vs proj) l lt lb Wl L.
Hypothesis Hr : Has (addAll vs proj) r rt rb Wr R.
Hypothesis Hq : relations q = relations l ++ relations r.
Hypothesis Hdis : forall i, In i (relations l) -> ~ In i (relations r).
Hypothesis Hon : In on vs.
Hypothesis Hlr : In (on, lr) lb.
Hypothesis Hrr : In (on, rr) rb.
Hypothesis HA : Answers (map snd lb ++ map snd rb) (Wl ++ Wr) J0 jo.
Hypothesis HJ : same (map snd lb ++ map snd rb) J0 (joined (lr :: tail_of lb on) lr rr L R).
Hypothesis HO : forall v x, ordering nodes q = Some v -> In (v, x) (mergeBindings proj lb rb) -> ascending x J0.
Lemma common : exists o J, addAdditionalSelections w fuel jo vs lb rb (Some on) = Some o /\ Has proj q o (mergeBindings proj lb rb) (Wl ++ Wr) J.
Proof.
  assert (Hproj : incl proj (addAll vs proj)) by (intros v Hv; apply addAll_In; auto).
  destruct (pairs_ok U nodes (addAll vs proj) l r lt rt lb rb Wl Wr L R Hl Hr Hdis (filter (fun v => negb (v =? on)%nat) vs)) as (ps & Eps & I1 & I2 & Heq).
  { intros v Hv. apply filter_In in Hv. destruct Hv as [Hv _]. split; [apply addAll_In; auto|]. now apply joinvars_In. }
  pose proof (in_map snd _ _ Hlr) as Jl. pose proof (in_map snd _ _ Hrr) as Jr. cbn [snd] in Jl, Jr.
  destruct (tail_set _ _ _ _ _ _ on lr Hl Hlr) as [HX HXn].
  assert (Hlen : (length J0 < fuel)%nat).
  { pose proof (weigh_pos J0 (answers_pos _ _ _ _ HA)) as H1. fold (total J0) in H1. rewrite (same_total _ _ _ HJ) in H1. unfold joined in H1.
    pose proof (total_filter (fun p : regs * Z => fst p lr =? fst p rr) (pairs (lr :: tail_of lb on) L (fun _ => R)) (pairs_pos _ _ _ (has_pos _ _ _ _ _ _ _ _ Hl) (has_pos _ _ _ _ _ _ _ _ Hr))) as H2.
    rewrite total_pairs in H2. pose proof (has_total U nodes HU Hlin _ _ _ _ _ _ Hl) as H3. pose proof (has_total U nodes HU Hlin _ _ _ _ _ _ Hr) as H4.
    pose proof (size_bound q Pq) as H5. rewrite Hq, app_length, Nat.pow_add_r in H5.
    assert (0 <= total R) by (pose proof (weigh_pos R (has_pos _ _ _ _ _ _ _ _ Hr)); unfold total; lia).
    assert (0 <= total L) by (pose proof (weigh_pos L (has_pos _ _ _ _ _ _ _ _ Hl)); unfold total; lia).
    assert (total L * total R <= Z.of_nat (length U ^ length (relations l) * length U ^ length (relations r))) by (rewrite Nat2Z.inj_mul; apply Z.mul_le_mono_nonneg; lia).
    lia. }
  exists (match ps with [] => jo | p :: ps => selection w fuel (conj_of p ps) jo end), (filter (fun a => equals ps (fst a)) J0). split.
  { unfold addAdditionalSelections. cbn iota beta. rewrite Eps. destruct ps; reflexivity. }
  apply (step_has U nodes HU Hlin proj (addAll vs proj) l r q lt rt lb rb Wl Wr L R Hproj Hl Hr Hq Hdis vs (fun g => (g lr =? g rr) && equals ps g)).
  - intros v. apply joinvars_In.
  - intros s1 s2. rewrite Heq, (compat_split on vs s1 s2 Hon). f_equal.
    rewrite beside_in by exact Jl. rewrite beside_out by (eapply step_V; [exact Hl|exact Hr|exact Hdis|exact Jr]).
    unfold PlanProofs4.regs_of. destruct (h_binds _ _ _ _ _ _ _ _ Hl) as (_ & Bl & _), (h_binds _ _ _ _ _ _ _ _ Hr) as (_ & Br & _). destruct (Bl _ _ Hlr) as [_ ->]. destruct (Br _ _ Hrr) as [_ ->]. reflexivity.
  - intros g h A. rewrite (A lr), (A rr) by (apply in_or_app; auto). f_equal. apply (equals_agree (map snd lb ++ map snd rb)); auto; intros x Hx; apply in_or_app; auto.
  - destruct ps as [|p ps]; [rewrite filter_true by reflexivity; exact HA|]. apply select_equal; auto; intros x Hx; apply in_or_app; auto.
  - rewrite <- (filter_filter (fun a : regs * Z => equals ps (fst a)) (fun a : regs * Z => fst a lr =? fst a rr)).
    apply same_filter.
    + intros g h c d A. cbn [fst]. apply (equals_agree (map snd lb ++ map snd rb)); auto; intros x Hx; apply in_or_app; auto.
    + eapply same_trans; [exact HJ|]. unfold joined. apply same_filter.
      * intros g h c d A. cbn [fst]. rewrite (A lr), (A rr) by (apply in_or_app; auto). reflexivity.
      * apply same_pairs_set. exact HX.
  - intros v x E Hi. apply ascending_filter. eapply HO; eauto.
Qed.
End Common.

Theorem planned_has p : Planned p -> (forall idx, In idx (indices p) -> serves U fuel open idx) -> (forall idx, In idx (aggregated p) -> serves_counts U fuel open idx) ->
  (forall idx, In idx (fully p) -> serves_terms U fuel tl idx) ->
  forall proj, wanted proj -> exists o b W L, translatePlan w fuel memory open tl nodes proj p = Some (o, b) /\ Has proj p o b W L.
Proof.
  induction 1 as [u idx i Hi Hidx|u idx i k1 k2 k3 v3 Hi Hidx Hcol Hv3 Hp Ho Hb|idx i k1 k2 k3 v1 v2 v3 Hi Hidx Hcol Hv1 Hv2 Hv3 Hp2 Ho2 Hp3 Ho3|on l r Hl IHl Hr IHr HO HC El Er|l r Hl IHl Hr IHr HO HC|l r Hl IHl Hr IHr HO HC]; intros HS HS' HT proj HW; cbn [indices aggregated fully] in HS, HS', HT.
  - apply leaf_has; [exact Hidx|]. apply HS. now left.
  - eapply agg_has; eauto; [|apply HS'; now left]. intros Hv. destruct (HW _ Hv) as [H|(a & b & Hab & Ha & Hb')]; [contradiction|].
    destruct (Nat.eq_dec a i) as [->|N]; [apply (Ho b); auto|apply (Ho a); auto].
  - eapply full_has; eauto; [| |apply HT; now left].
    + intros Hv. destruct (HW _ Hv) as [H|(a & b & Hab & Ha & Hb')]; [contradiction|]. destruct (Nat.eq_dec a i) as [->|N]; [apply (Ho2 b); auto|apply (Ho2 a); auto].
    + intros Hv. destruct (HW _ Hv) as [H|(a & b & Hab & Ha & Hb')]; [contradiction|]. destruct (Nat.eq_dec a i) as [->|N]; [apply (Ho3 b); auto|apply (Ho3 a); auto].
  - set (vs := getJoinVariables nodes l r). assert (Hon : In on vs) by (apply joinvars_In; split; now apply ordering_var).
    destruct (IHl (fun idx Hi => HS idx (in_or_app _ _ _ (or_introl Hi))) (fun idx Hi => HS' idx (in_or_app _ _ _ (or_introl Hi))) (fun idx Hi => HT idx (in_or_app _ _ _ (or_introl Hi))) (addAll vs proj) (wanted_join l r proj HO HW)) as (lt & lb & Wl & L & Etl & Hasl).
    destruct (IHr (fun idx Hi => HS idx (in_or_app _ _ _ (or_intror Hi))) (fun idx Hi => HS' idx (in_or_app _ _ _ (or_intror Hi))) (fun idx Hi => HT idx (in_or_app _ _ _ (or_intror Hi))) (addAll vs proj) (wanted_join l r proj HO HW)) as (rt & rb & Wr & R & Etr & Hasr).
    destruct (lb_get U nodes _ _ _ _ _ _ Hasl on) as (lr & Elr & Ilr); [apply addAll_In; auto|now apply ordering_var|].
    destruct (rb_get U nodes _ _ _ _ _ _ Hasr on) as (rr & Err & Irr); [apply addAll_In; auto|now apply ordering_var|].
    destruct (tail_set _ _ _ _ _ _ on lr Hasl Ilr) as [HX HXn]. destruct (tail_set _ _ _ _ _ _ on rr Hasr Irr) as [HY HYn].
    assert (Pq : Planned (MergeJoin on l r)) by (constructor; auto).
    pose proof (has_length U nodes HU Hlin _ _ _ _ _ _ Hasl) as LL. pose proof (has_length U nodes HU Hlin _ _ _ _ _ _ Hasr) as LR.
    pose proof (size_bound l Hl) as BL. pose proof (size_bound r Hr) as BR.
    pose proof (C57_merge_join (map snd lb) Wl (map snd rb) Wr lr rr (tail_of lb on) (tail_of rb on) L R lt rt fuel (h_incl _ _ _ _ _ _ _ _ Hasl) (h_incl _ _ _ _ _ _ _ _ Hasr)
      (step_W U nodes _ l r lt rt lb rb Wl Wr L R Hasl Hasr (overlaps_dis l r HO)) (fun x Hx => proj1 (HX x) Hx) (fun x Hx => proj1 (HY x) Hx) HXn HYn
      (h_order _ _ _ _ _ _ _ _ Hasl on lr El Ilr) (h_order _ _ _ _ _ _ _ _ Hasr on rr Er Irr) ltac:(lia) (h_answers _ _ _ _ _ _ _ _ Hasl) (h_answers _ _ _ _ _ _ _ _ Hasr)) as HJ.
    destruct (common proj l r (MergeJoin on l r) lt rt (merge_join fuel lr rr (tail_of lb on) (tail_of rb on) false false lt rt) lb rb Wl Wr L R (joined (lr :: tail_of lb on) lr rr L R) on lr rr) as (o & J & Eo & HasJ); auto.
    + now apply overlaps_dis.
    + eapply Answers_V; [|exact HJ]. intros x Hx. apply in_app_or in Hx. apply in_or_app. destruct Hx; [left; now apply HX|right; now apply HY].
    + apply same_refl.
    + intros v x Eo Hi. cbn [ordering] in Eo. rewrite El in Eo. injection Eo as <-.
      rewrite (merge_left U nodes proj (addAll vs proj) l lt lb rb Wl L Hasl on x lr Hi Ilr). unfold joined. apply ascending_filter, ascending_pairs; [now left|].
      eapply h_order; eauto.
    + exists o, (mergeBindings proj lb rb), (Wl ++ Wr), J. split; [|exact HasJ]. cbn [translatePlan]. fold vs. rewrite (proj2 (mem_In on vs) Hon). cbn [negb].
      rewrite Etl, Etr, Elr, Err, (planned_optional l Hl), (planned_optional r Hr). fold vs in Eo. now rewrite Eo.
  - set (vs := getJoinVariables nodes l r). destruct vs as [|on vs'] eqn:Evs.
    { exfalso. apply edge_var in HC. destruct HC as (v & Hv). apply joinvars_In in Hv. fold vs in Hv. rewrite Evs in Hv. destruct Hv. }
    assert (Hon : In on vs) by (rewrite Evs; now left). destruct (proj1 (joinvars_In nodes l r on) Hon) as [Hvl Hvr].
    destruct (IHl (fun idx Hi => HS idx (in_or_app _ _ _ (or_introl Hi))) (fun idx Hi => HS' idx (in_or_app _ _ _ (or_introl Hi))) (fun idx Hi => HT idx (in_or_app _ _ _ (or_introl Hi))) (addAll vs proj) (wanted_join l r proj HO HW)) as (lt & lb & Wl & L & Etl & Hasl).
    destruct (IHr (fun idx Hi => HS idx (in_or_app _ _ _ (or_intror Hi))) (fun idx Hi => HS' idx (in_or_app _ _ _ (or_intror Hi))) (fun idx Hi => HT idx (in_or_app _ _ _ (or_intror Hi))) (addAll vs proj) (wanted_join l r proj HO HW)) as (rt & rb & Wr & R & Etr & Hasr).
    destruct (lb_get U nodes _ _ _ _ _ _ Hasl on) as (lr & Elr & Ilr); [apply addAll_In; auto|exact Hvl|].
    destruct (rb_get U nodes _ _ _ _ _ _ Hasr on) as (rr & Err & Irr); [apply addAll_In; auto|exact Hvr|].
    destruct (tail_set _ _ _ _ _ _ on lr Hasl Ilr) as [HX HXn].
    assert (Pq : Planned (HashJoin l r)) by (constructor; auto).
    pose proof (has_length U nodes HU Hlin _ _ _ _ _ _ Hasl) as LL. pose proof (has_length U nodes HU Hlin _ _ _ _ _ _ Hasr) as LR.
    pose proof (size_bound l Hl) as BL. pose proof (size_bound r Hr) as BR.
    destruct (C56_hash_join_memory (map snd lb) Wl (map snd rb) Wr lr rr (tail_of lb on) (tail_of rb on) (fun _ => true) L R lt rt fuel memory (h_incl _ _ _ _ _ _ _ _ Hasl) (h_incl _ _ _ _ _ _ _ _ Hasr)
      (step_W U nodes _ l r lt rt lb rb Wl Wr L R Hasl Hasr (overlaps_dis l r HO)) (fun x Hx => proj1 (HX x) Hx) HXn (in_map snd _ _ Irr) (fun _ _ _ => eq_refl)
      ltac:(lia) ltac:(lia) (h_answers _ _ _ _ _ _ _ _ Hasl) (h_answers _ _ _ _ _ _ _ _ Hasr) Hmem
      (has_range U nodes HU Hlin Hrange _ _ _ _ _ _ lr Hasl (in_map snd _ _ Ilr))) as (J0 & HJ & HJo).
    destruct (common proj l r (HashJoin l r) lt rt (hash_join fuel memory (fun _ => true) lr rr (tail_of lb on) (tail_of rb on) false false lt rt) lb rb Wl Wr L R J0 on lr rr) as (o & J & Eo & HasJ); auto.
    + now apply overlaps_dis.
    + eapply Answers_V; [|exact HJ]. intros x Hx. apply in_app_or in Hx. apply in_or_app. destruct Hx; [left; now apply HX|right; auto].
    + apply (same_incl _ ((lr :: tail_of lb on) ++ map snd rb)).
      * intros x Hx. apply in_app_or in Hx. apply in_or_app. destruct Hx; [left; now apply HX|right; auto].
      * apply occurs_same. intros t. rewrite HJo. unfold kept. rewrite filter_true by reflexivity. reflexivity.
    + intros v x Eo. discriminate.
    + exists o, (mergeBindings proj lb rb), (Wl ++ Wr), J. split; [|exact HasJ]. cbn [translatePlan]. fold vs. rewrite Evs. rewrite <- Evs.
      rewrite Etl, Etr, Elr, Err, (planned_optional l Hl), (planned_optional r Hr). fold vs in Eo. now rewrite Eo.
  - destruct (IHl (fun idx Hi => HS idx (in_or_app _ _ _ (or_introl Hi))) (fun idx Hi => HS' idx (in_or_app _ _ _ (or_introl Hi))) (fun idx Hi => HT idx (in_or_app _ _ _ (or_introl Hi))) proj HW) as (lt & lb & Wl & L & Etl & Hasl).
    destruct (IHr (fun idx Hi => HS idx (in_or_app _ _ _ (or_intror Hi))) (fun idx Hi => HS' idx (in_or_app _ _ _ (or_intror Hi))) (fun idx Hi => HT idx (in_or_app _ _ _ (or_intror Hi))) proj HW) as (rt & rb & Wr & R & Etr & Hasr).
    pose proof (has_length U nodes HU Hlin _ _ _ _ _ _ Hasr) as LR. pose proof (size_bound r Hr) as BR.
    exists (cart_prod fuel (map snd lb) (map snd rb) false false lt rt), (mergeBindings proj lb rb), (Wl ++ Wr), (pairs (map snd lb) L (fun _ => R)). split.
    { cbn [translatePlan]. rewrite Etl, Etr, (planned_optional l Hl), (planned_optional r Hr). reflexivity. }
    apply (step_has U nodes HU Hlin proj proj l r (CartProd l r) lt rt lb rb Wl Wr L R (fun x Hx => Hx) Hasl Hasr eq_refl (overlaps_dis l r HO) [] (fun _ => true)).
    + intros v. split; [intros []|]. intros Hv. assert (connected nodes l r = true) by (apply edge_var; eauto). congruence.
    + reflexivity.
    + reflexivity.
    + assert (EP : forall X : list (regs * Z), padded false X = X) by (intros [|x X]; reflexivity).
      pose proof (C58_product_partial (map snd lb) Wl (map snd rb) Wr L R lt rt fuel false false (h_incl _ _ _ _ _ _ _ _ Hasl) (h_incl _ _ _ _ _ _ _ _ Hasr)
        (step_W U nodes _ l r lt rt lb rb Wl Wr L R Hasl Hasr (overlaps_dis l r HO)) (binds_nodup _ _ _ _ (h_binds _ _ _ _ _ _ _ _ Hasr)) ltac:(lia) (fun _ => eq_refl)
        (h_answers _ _ _ _ _ _ _ _ Hasl) (h_answers _ _ _ _ _ _ _ _ Hasr)) as HP. rewrite !EP in HP. exact HP.
    + rewrite filter_true by reflexivity. apply same_refl.
    + intros v x E. discriminate.
Qed.
End Whole.

Lemma planned_indices nodes projection p : Planned nodes projection p -> forall idx, In idx (indices p) \/ In idx (aggregated p) \/ In idx (fully p) -> (idx < 6)%nat.
Proof.
  induction 1 as [u i j Hj Hi6|u i j k1 k2 k3 v3 Hj Hi6 Hcol Hv3 Hp Ho Hb|i j k1 k2 k3 v1 v2 v3 Hj Hi6 Hcol Hv1 Hv2 Hv3 Hp2 Ho2 Hp3 Ho3|on l r Hl IHl Hr IHr HO HC El Er|l r Hl IHl Hr IHr HO HC|l r Hl IHl Hr IHr HO HC]; intros idx Hi; cbn [indices aggregated fully] in Hi;
    try (rewrite !in_app_iff in Hi; specialize (IHl idx); specialize (IHr idx); tauto); cbn [In] in Hi; intuition (subst; auto).
Qed.
